(* The order in which locks are taken: if hooks that run while locks are held make only light calls, and no empty
   buffers are closed, goroutines can always finish. *)
From Coq Require Import List Arith Bool Lia.
From Verif Require Import BaseConc ModelAccess SpecAccess ProofAccess.
Import ListNotations.
Open Scope nat_scope.

Definition rank (k : lkind) : nat :=
  match k with
  | SessionLock => 0 | WriterLock => 1 | BufLock => 2 | ReadLock => 3 | ReaderLock | RegLock => 4 | TransLock => 5
  | OpsLock | ConnsLock | StateLock | SemLock | PendLock => 6
  end.
Definition lrank (l : lock) : nat := rank (fst l).
(* all locks held rank below r *)
Definition below (r : nat) (h : list hold) : Prop := forall l b, In (l, b) h -> lrank l < r.
Fixpoint wpx (h : list hold) (c : code) (Q : list hold -> Prop) {struct c} : Prop :=
  match c with
  | Nop => Q h
  | Do (Lk l) => below (lrank l) h /\ Q ((l, true) :: h)
  | Do (RLk l) => below (lrank l) h /\ Q ((l, false) :: h)
  | Do (Ul l) => match rm (l, true) h with Some h' => Q h' | None => False end
  | Do (RUl l) => match rm (l, false) h with Some h' => Q h' | None => False end
  | Do _ => Q h
  | Seq c d => wpx h c (fun h' => wpx h' d Q)
  | Alt c d => wpx h c Q /\ wpx h d Q
  | Rep c => wpx h c (fun h' => h' = h) /\ Q h
  | Any f => forall n, wpx h (f n) Q
  | IfFilled c => wpx h c Q
  | Hook i => (if i then below 1 h else h = []) /\ Q h
  end.
Lemma wpx_mono c : forall h (Q R : list hold -> Prop), (forall h', Q h' -> R h') -> wpx h c Q -> wpx h c R.
Proof.
  induction c as [|a|c1 IH1 c2 IH2|c1 IH1 c2 IH2|c IH|f IH|c IH|i]; cbn; intros h Q R HQ W; auto.
  - destruct a; try (destruct (rm _ _)); intuition auto.
  - eapply IH1; [|exact W]. cbn. eauto.
  - destruct W; eauto.
  - destruct W; eauto.
  - eauto.
  - eauto.
  - destruct W; auto.
Qed.
Fixpoint wpxs (h : list hold) (k : list code) : Prop :=
  match k with [] => h = [] | c :: k => wpx h c (fun h' => wpxs h' k) end.
Definition neat (c : code) : Prop := wpx [] c (fun h => h = []).

(* given locks below r, c leaves the locks as they were *)
Definition calm (r : nat) (c : code) : Prop := forall h (Q : list hold -> Prop), below r h -> Q h -> wpx h c Q.

Section Runs.
Variable p : policy.
Hypothesis p_neat : forall q, p_call p q -> neat (code_of q).
Hypothesis p_in : forall q, p_inner p q -> calm 1 (code_of q).
Hypothesis p_emp : ~ p_empty p.
Lemma exact_silent A k k' : wpxs A k -> next p k None k' -> wpxs A k'.
Proof.
  intros W N. remember None as o eqn:E. destruct N; try discriminate; cbn [wpxs] in *; try (cbn in W |- *; tauto).
  - cbn in W |- *. destruct W as [B W]. eapply wpx_mono; [|exact B]. cbn. intros h' ->. auto.
  - cbn in W |- *. auto.
  - destruct i.
    { cbn in W. destruct W as [B W]. apply p_in; auto. cbn. auto. }
    cbn in W. destruct W as [-> W].
    eapply wpx_mono; [|apply p_neat; eauto]. cbn. intros h' ->. auto.
Qed.
Lemma exact_act A a k : wpxs A (Do a :: k) -> exists B, after a A = Some B /\ wpxs B k.
Proof.
  intros W. destruct a; cbn in W; cbn [after]; try (destruct (rm _ _)); try tauto; try (eexists; split; [reflexivity|]; tauto).
Qed.
Definition xinv (As : list (list hold)) (s : state) : Prop := Forall2 wpxs As (st_threads s) /\ tally (st_locks s) As.
Lemma xinv_step As s s' : xinv As s -> step p s s' -> exists As', xinv As' s'.
Proof.
  intros [F T] St. destruct St as [s q Hq|s i k k' Hk N|s i k a k' l' Hk N E].
  - exists (As ++ [[]]). split; cbn.
    + apply Forall2_app; auto. constructor; [|constructor]. cbn [wpxs]. apply p_neat; auto.
    + intros l. rewrite !total_app. cbn. rewrite !Nat.add_0_r. apply T.
  - destruct (Forall2_nth _ _ _ _ _ F Hk) as (A & HA & L). exists (set_nth As i A). split; cbn.
    + apply Forall2_set; auto. eapply exact_silent; eauto.
    + rewrite (set_same _ _ _ HA). exact T.
  - destruct (Forall2_nth _ _ _ _ _ F Hk) as (A & HA & L). pose proof (next_act _ _ _ _ N); subst k.
    destruct (exact_act _ _ _ L) as (B & AF & LB). exists (set_nth As i B). split; cbn.
    + apply Forall2_set; auto.
    + eapply tally_act; eauto.
Qed.
Lemma xinv_reach s : areach p s -> exists As, xinv As s.
Proof.
  induction 1 as [|s s' R [As I] St]; [|eapply xinv_step; eauto].
  exists []. split; [constructor|]. intros l; cbn; auto.
Qed.

(* ---------- a goroutine that can go on, and gets less to do ---------- *)
Fixpoint size (c : code) : nat :=
  match c with
  | Nop | Do _ | Hook _ => 1
  | Seq c d => S (size c + size d) | Alt c d => S (size c + size d)
  | Rep c => 1 | Any f => S (size (f 0)) | IfFilled c => S (size c)
  end.
Fixpoint sizes (k : list code) : nat := match k with [] => 0 | c :: k => size c + sizes k end.
Fixpoint load (ks : list (list code)) : nat := match ks with [] => 0 | k :: ks => sizes k + load ks end.
Lemma size_pos c : 1 <= size c. Proof. destruct c; cbn; lia. Qed.
Lemma load_set ks i k k' : nth_error ks i = Some k -> load (set_nth ks i k') + sizes k = load ks + sizes k'.
Proof.
  revert i; induction ks as [|x ks IH]; intros i H; destruct i as [|i]; cbn in *; try discriminate.
  - injection H as ->. lia.
  - specialize (IH _ H). lia.
Qed.
Lemma total_holder x As : 1 <= total x As -> exists j A, nth_error As j = Some A /\ 1 <= count x A.
Proof.
  induction As as [|A As IH]; cbn; [lia|]. destruct (count x A) eqn:E; intros H.
  - destruct IH as (j & B & HB & C); [lia|]. exists (S j), B; auto.
  - exists 0, A; cbn; split; [auto|lia].
Qed.
Lemma count_In x h : 1 <= count x h -> In x h.
Proof.
  induction h as [|y h IH]; cbn; [lia|]. destruct (hold_eqb x y) eqn:E; [apply hold_eqb_spec in E; auto|]. intros; right; apply IH; lia.
Qed.
Lemma Forall2_nth_l {A B} (R : A -> B -> Prop) l l' i a : Forall2 R l l' -> nth_error l i = Some a -> exists b, nth_error l' i = Some b /\ R a b.
Proof.
  intros F; revert i; induction F as [|x y l l' HR F IH]; intros i H; destruct i as [|i]; cbn in *; try discriminate; eauto.
  injection H as <-. eauto.
Qed.
Definition goes_on (s : state) : Prop := exists s', step p s s' /\ ~ overtakes s s' /\ load (st_threads s') < load (st_threads s).
Lemma silent_goes s i c k k' : nth_error (st_threads s) i = Some (c :: k) -> next p (c :: k) None k' -> sizes k' < size c + sizes k -> goes_on s.
Proof.
  intros Hk N L. eexists; split; [eapply St_silent; eauto|]. split; [intros (l & j & _ & H); cbn in H; lia|]. cbn. pose proof (load_set _ _ _ k' Hk). cbn [sizes] in *. lia.
Qed.
Lemma act_goes s i a k l' : nth_error (st_threads s) i = Some (Do a :: k) -> effect (st_locks s) a = Some l' ->
  (forall l j, a = RLk l -> ~ about s j (Lk l)) -> goes_on s.
Proof.
  intros Hk E NW. eexists; split; [eapply St_act; [exact Hk|constructor|exact E]|]. split.
  { intros (l & j & Ab & H). cbn [st_locks] in H. destruct a as [m|m|m|m|x|x|x|]; cbn in E; try (injection E as <-; lia);
    destruct (st_locks s m) as [e n] eqn:Em; destruct e; try discriminate; try (destruct n; try discriminate); injection E as <-;
    (destruct (lock_dec l m) as [->|Nm]; [rewrite set_lock_same, Em in H; cbn in H|rewrite set_lock_other in H by auto]); try lia;
    eapply NW; eauto. }
  cbn. pose proof (load_set _ _ _ k Hk). cbn [sizes size] in *. lia.
Qed.
Definition asks_lock (c : code) (l : lock) : Prop := c = Do (Lk l) \/ c = Do (RLk l).
(* a goroutine that does not ask for a lock goes on *)
Lemma plain_goes As s i c k : xinv As s -> nth_error (st_threads s) i = Some (c :: k) -> (forall l, ~ asks_lock c l) -> goes_on s.
Proof.
  intros [F T] Hk N. destruct (Forall2_nth _ _ _ _ _ F Hk) as (A & HA & W).
  destruct c as [|a|c d|c d|c|f|c|b]; try (eapply silent_goes; [exact Hk|solve [constructor|apply Nx_filled]|cbn [sizes size]; pose proof size_pos; try pose proof (size_pos c); try pose proof (size_pos d); lia]).
  - destruct a.
    + exfalso. eapply N; left; reflexivity.
    + cbn in W. destruct (rm (l, true) A) as [B|] eqn:E; [|easy]. pose proof (total_one (l, true) _ _ _ HA) as O.
      rewrite (count_rm _ _ _ _ E), hold_eqb_refl in O. destruct (T l) as (T1 & _). destruct (st_locks s l) as [e n] eqn:L; cbn in T1. destruct e; [|lia].
      eapply act_goes; [exact Hk|cbn; rewrite L; reflexivity|intros; discriminate].
    + exfalso. eapply N; right; reflexivity.
    + cbn in W. destruct (rm (l, false) A) as [B|] eqn:E; [|easy]. pose proof (total_one (l, false) _ _ _ HA) as O.
      rewrite (count_rm _ _ _ _ E), hold_eqb_refl in O. destruct (T l) as (_ & T2 & _). destruct (st_locks s l) as [e n] eqn:L; cbn in T2. destruct n as [|n]; [lia|].
      eapply act_goes; [exact Hk|cbn; rewrite L; reflexivity|intros; discriminate].
    + eapply act_goes; [exact Hk|reflexivity|intros; discriminate].
    + eapply act_goes; [exact Hk|reflexivity|intros; discriminate].
    + eapply act_goes; [exact Hk|reflexivity|intros; discriminate].
    + eapply act_goes; [exact Hk|reflexivity|intros; discriminate].
  - eapply silent_goes; [exact Hk|eapply Nx_any with (n := 0)|cbn [sizes size]; lia].
Qed.
Lemma rank_le k : rank k <= 6. Proof. destruct k; cbn; lia. Qed.
(* one that asks for a lock goes on or waits for another; ranks grow along the chain *)
Lemma asks_dec c : (exists l, asks_lock c l) \/ (forall l, ~ asks_lock c l).
Proof. destruct c as [|[l|l|l|l|x|x|x|]| | | | | |]; try (right; intros l' [H|H]; discriminate); left; exists l; [left|right]; reflexivity. Qed.
Lemma about_dec s l : (exists j, about s j (Lk l)) \/ (forall j, ~ about s j (Lk l)).
Proof.
  destruct s as [ls ks]; unfold about; cbn. induction ks as [|k ks [[i (k' & H)]|N]].
  - right. intros i (k & H). destruct i; discriminate.
  - left. exists (S i), k'. auto.
  - destruct k as [|c k]; [right; intros [|i] (k & H); [discriminate|apply (N i); exists k; auto]|].
    destruct (asks_dec c) as [[l' [->| ->]]|Nc].
    + destruct (lock_dec l' l) as [->|Nl]; [left; exists 0, k; auto|].
      right. intros [|i] (k' & H); [cbn in H; congruence|apply (N i); exists k'; auto].
    + right. intros [|i] (k' & H); [cbn in H; congruence|apply (N i); exists k'; auto].
    + right. intros [|i] (k' & H); [cbn in H; injection H as -> ->; eapply Nc; left; reflexivity|apply (N i); exists k'; auto].
Qed.
Lemma chain_goes n : forall As s i c k l, xinv As s -> nth_error (st_threads s) i = Some (c :: k) -> asks_lock c l -> 7 - lrank l <= n -> goes_on s.
Proof.
  induction n as [|n IH]; intros As s i c k l I Hk As_l Hn.
  { unfold lrank in Hn. pose proof (rank_le (fst l)). lia. }
  assert (1 <= total (l, true) As + total (l, false) As -> goes_on s) as Blk.
  { intros Tl. destruct I as [F T].
    assert (exists j B b, nth_error As j = Some B /\ In (l, b) B) as (j & B & b & HB & HIn).
    { destruct (total (l, true) As) eqn:E1.
      - destruct (total_holder (l, false) As) as (j & B & HB & C); [lia|]. exists j, B, false. split; auto. apply count_In; auto.
      - destruct (total_holder (l, true) As) as (j & B & HB & C); [lia|]. exists j, B, true. split; auto. apply count_In; auto. }
    destruct (Forall2_nth_l _ _ _ _ _ F HB) as (kj & Hj & Wj). destruct kj as [|cj kj]; [cbn in Wj; subst B; destruct HIn|].
    destruct (asks_dec cj) as [[l' Al']|Np]; [|eapply plain_goes; [split; eauto|exact Hj|exact Np]].
    eapply IH with (l := l'); [split; eauto|exact Hj|exact Al'|].
    assert (lrank l < lrank l'); [|lia]. destruct Al' as [->| ->]; cbn in Wj; destruct Wj as [Bl _]; eapply Bl; eauto. }
  pose proof I as [_ T]. destruct (T l) as (T1 & T2 & T3). destruct (st_locks s l) as [e m] eqn:L; cbn in T1, T2, T3.
  destruct e; [apply Blk; lia|]. destruct As_l as [->| ->].
  - destruct m; [|apply Blk; lia]. eapply act_goes; [exact Hk|cbn; rewrite L; reflexivity|intros; discriminate].
  - destruct m; [|apply Blk; lia]. destruct (about_dec s l) as [(j & k' & Hj)|N].
    + eapply act_goes; [exact Hj|cbn; rewrite L; reflexivity|intros; discriminate].
    + eapply act_goes; [exact Hk|cbn; rewrite L; reflexivity|]. intros l' j E. injection E as <-. apply N.
Qed.
Theorem one_goes As s i : xinv As s -> unfinished s i -> goes_on s.
Proof.
  intros I (c & k & Hk). destruct (asks_dec c) as [[l Al]|N]; [eapply chain_goes; eauto|eapply plain_goes; eauto].
Qed.
Lemma total_nil x As : Forall (fun A => A = []) As -> total x As = 0.
Proof. induction 1 as [|A As H F IH]; cbn; [|rewrite IH; subst]; auto. Qed.
Lemma unfinished_dec s : (exists i, unfinished s i) \/ (forall i, ~ unfinished s i).
Proof.
  destruct s as [l ks]; unfold unfinished; cbn. induction ks as [|k ks [[i (c & k' & H)]|N]].
  - right. intros i (c & k & H). destruct i; discriminate.
  - left. exists (S i), c, k'. auto.
  - destruct k as [|c k]; [right|left; exists 0, c, k; auto]. intros i (c & k & H). destruct i as [|i]; [discriminate|]. apply (N i). exists c, k; auto.
Qed.
Lemma all_free As s : xinv As s -> (forall i, ~ unfinished s i) -> forall l, st_locks s l = (false, 0).
Proof.
  intros [F T] N l. assert (Forall (fun A => A = []) As) as All.
  { rewrite Forall_forall. intros A HA. apply In_nth_error in HA as [i Hi]. destruct (Forall2_nth_l _ _ _ _ _ F Hi) as (k & Hk & W).
    destruct k as [|c k]; [exact W|]. exfalso. apply (N i). exists c, k; auto. }
  destruct (T l) as (T1 & T2 & _). rewrite total_nil in T1, T2 by auto. destruct (st_locks s l) as [[|] n]; cbn in *; [discriminate|congruence].
Qed.
Lemma set_nth_len {A} (l : list A) i x : length (set_nth l i x) = length l.
Proof. revert i; induction l; intros [|i]; cbn; auto. Qed.
Theorem can_finish s : areach p s -> exists s', onward p s s' /\ (forall i, ~ unfinished s' i) /\ forall l, st_locks s' l = (false, 0).
Proof.
  intros R. remember (load (st_threads s)) as n eqn:E. assert (load (st_threads s) <= n) as L by lia. clear E. revert s R L.
  induction n as [n IH] using lt_wf_ind. intros s R L. destruct (xinv_reach _ R) as [As I].
  destruct (unfinished_dec s) as [[i U]|N].
  - destruct (one_goes _ _ _ I U) as (s' & St & NO & Lt). destruct (IH (load (st_threads s'))) with (s := s') as (s'' & P & X); [lia|eapply AR_step; eauto|lia|].
    exists s''. split; [|exact X]. econstructor; [exact St|exact NO| |exact P]. destruct St; cbn in *; rewrite ?set_nth_len; auto.
    exfalso. clear - Lt. revert Lt. induction (st_threads s) as [|k ks IH]; cbn; lia.
  - exists s. split; [constructor|]. split; [exact N|eapply all_free; eauto].
Qed.
End Runs.
