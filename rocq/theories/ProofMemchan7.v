(* The in-memory transport: WriteMsg* functions on memchan writers. *)
From Coq Require Import List Arith NArith ZArith Lia Bool.
From Verif Require Import BaseBytes BaseConc ModelMessage ModelWrite ModelMemchan SpecWire SpecWrite SpecMemchan.
From Verif Require Import ProofMemchan ProofMemchan2 ProofMemchan5.
Import ListNotations.
Open Scope nat_scope.

Lemma log_grows s e s' : mstep s e = Some s' -> exists l, mlog s' = mlog s ++ l.
Proof.
  intros H. apply mstep_rel in H as [_ H].
  assert (G : forall i t n' t' w, trel (s_ts s) i (s_net s) t n' t' w -> exists l, n_log n' = mlog s ++ l).
  { intros i t n' t' w T. tcases T k st n1 s1 H1 H0.
    - inversion H1; subst; netu; netc; eauto; exists []; rewrite app_nil_r; reflexivity.
    - inversion H1; subst; netu; netc; eauto; exists []; rewrite app_nil_r; reflexivity.
    - assert (Q : n_log n1 = n_log (s_net s)) by (destruct H0; reflexivity).
      destruct t as [| ? ? ? []| | |[]]; try discriminate H1; destruct s1; cbn [end_close]; netu; netc; rewrite ?Q; eauto; exists []; rewrite app_nil_r; reflexivity.
    - inversion H1; subst; netu; netc; rewrite <- ?app_assoc; eauto; exists []; rewrite app_nil_r; reflexivity.
    - inversion H1; subst; netu; netc; eauto; exists []; rewrite app_nil_r; reflexivity. }
  destruct H as [e t B|x ch t n' t' X T|x ch t n' t' j v k0 X T D V J]; cbn; eauto; [exists []; rewrite app_nil_r; reflexivity|]. exact (G _ _ _ _ _ T).
Qed.
Lemma mrun_grows es : forall s s', mrun s es = Some s' -> exists l, mlog s' = mlog s ++ l.
Proof.
  induction es as [|e es IH]; intros s s' H; cbn in H; [injection H as <-; exists []; rewrite app_nil_r; reflexivity|].
  destruct (mstep s e) as [s1|] eqn:E; [|discriminate]. destruct (IH _ _ H) as (l & ->).
  destruct (log_grows _ _ _ E) as (l' & ->). exists (l' ++ l). rewrite app_assoc. reflexivity.
Qed.
Lemma mfrom_grows ok s s' : mfrom ok s s' -> exists l, mlog s' = mlog s ++ l.
Proof.
  induction 1 as [|s1 e s2 _ (l & H) E _]; [exists []; rewrite app_nil_r; reflexivity|].
  destruct (log_grows _ _ _ E) as (l' & ->). rewrite H. exists (l ++ l'). rewrite app_assoc. reflexivity.
Qed.
Lemma mrun_cons s e s1 es : mstep s e = Some s1 -> mrun s (e :: es) = mrun s1 es.
Proof. intros H. cbn. rewrite H. reflexivity. Qed.
Section Calls.
Variables (size i : nat) (k : sock).
(* holding an open writer into which acc was written *)
Definition holds (acc : bytes) (s : sys) : Prop :=
  mreach size anything s /\ at_ s i (TWrite k WOpen) /\ n_crashed (s_net s) = false /\ u_blk (n_sock (s_net s) k) = None /\
  pending i (mlog s) = acc.
Lemma holds_len acc s : holds acc s -> b_len (u_buf (n_sock (s_net s) k)) = length acc /\ length (b_data (u_buf (n_sock (s_net s) k))) = size /\ length acc <= size.
Proof.
  intros (R & I & _ & B & P). destruct (invariants _ _ _ R) as [_ K]. destruct (K_size _ _ _ K k) as [A1 A2].
  pose proof (K_story _ _ _ K _ _ I) as S. cbn in S. destruct S as (_ & S & _). specialize (S B).
  pose proof (full_length size (s_net s) k A1 A2) as F. rewrite S, P in F. lia.
Qed.
Lemma write1 acc s p : holds acc s -> exists s1, mstep s (EvStep i (ChWrite p)) = Some s1 /\
  mlog s1 = mlog s ++ [LWrite i k p (length acc + length p <=? size)] /\
  holds (if length acc + length p <=? size then acc ++ p else []) s1.
Proof.
  intros H. destruct (holds_len _ _ H) as (A1 & A2 & A3). destruct H as (R & I & C & B & P). unfold at_ in I.
  assert (exists s1, mstep s (EvStep i (ChWrite p)) = Some s1 /\ mlog s1 = mlog s ++ [LWrite i k p (length acc + length p <=? size)] /\
    at_ s1 i (TWrite k WOpen) /\ n_crashed (s_net s1) = false /\ u_blk (n_sock (s_net s1) k) = None) as (s1 & E & L & X).
  { unfold mstep. rewrite C, I. cbn [tstep write_step]. rewrite B. cbn [free]. unfold buf_write. rewrite A1, A2.
    destruct (size - length acc <? length p) eqn:Q; eexists; (split; [reflexivity|]); cbn [s_net s_ts wake];
    (split; [netu; netc|]); try (split; [eapply set_nth_eq; eauto|]); netu; netc; rewrite ?sock_eqb_refl; netc; auto;
    do 2 f_equal; [apply Nat.ltb_lt in Q|apply Nat.ltb_ge in Q]; f_equal; symmetry; [apply Nat.leb_gt|apply Nat.leb_le]; lia. }
  exists s1. split; [exact E|]. split; [exact L|]. destruct X as (X1 & X2 & X3).
  repeat split; auto; [econstructor; eauto; constructor|]. rewrite L, pending_snoc. cbn. rewrite Nat.eqb_refl, P. reflexivity.
Qed.
Lemma close1 acc s : holds acc s -> exists s1, mstep s (EvStep i ChClose) = Some s1 /\ mreach size anything s1 /\
  match acc with
  | [] => at_ s1 i (TWrite k (WDone WrEmpty)) /\ mlog s1 = mlog s ++ [LWriter i k WrEmpty]
  | _ => at_ s1 i (TWrite k WFlush) /\ mlog s1 = mlog s
  end.
Proof.
  intros H. destruct (holds_len _ _ H) as (A1 & A2 & A3). destruct H as (R & I & C & B & P). unfold at_ in I.
  assert (exists s1, mstep s (EvStep i ChClose) = Some s1 /\ 
    match acc with
    | [] => at_ s1 i (TWrite k (WDone WrEmpty)) /\ mlog s1 = mlog s ++ [LWriter i k WrEmpty]
    | _ => at_ s1 i (TWrite k WFlush) /\ mlog s1 = mlog s
    end) as (s1 & E & X).
  { unfold mstep. rewrite C, I. cbn [tstep write_step]. rewrite B. cbn [free]. rewrite A1.
    destruct acc; cbn [length Nat.ltb Nat.leb wake]; eexists; (split; [reflexivity|]); (split; [eapply set_nth_eq; eauto|reflexivity]). }
  exists s1. split; [exact E|]. split; [econstructor; eauto; constructor|exact X].
Qed.
Lemma chunks_run fails chunks : forall n s acc s', holds acc s ->
  mrun s (map (on_writer i) (fst (run_calls fails n chunks))) = Some s' ->
  (forall m p, nth_error (fst (run_calls fails n chunks)) m = Some (CWrite p) ->
     nth_error (mlog s') (length (mlog s) + m) = Some (LWrite i k p (negb (fails (n + m))))) ->
  (length acc + length (concat chunks) <= size -> acc ++ concat chunks <> [] ->
     at_ s' i (TWrite k WFlush) /\ pending i (mlog s') = acc ++ concat chunks) /\
  (size < length acc + length (concat chunks) ->
     at_ s' i (TWrite k (WDone WrEmpty)) /\ snd (run_calls fails n chunks) = true).
Proof.
  induction chunks as [|c chunks IH]; intros n s acc s' H E L.
  - cbn in E. destruct (close1 _ _ H) as (s1 & E1 & R & X). rewrite E1 in E. injection E as <-. cbn [concat].
    destruct (holds_len _ _ H) as (_ & _ & A). split; [|cbn; lia]. rewrite app_nil_r. intros _ N.
    destruct acc; [congruence|]. destruct X as [X ->]. split; [exact X|apply H].
  - cbn [run_calls] in *. destruct (write1 _ _ c H) as (s1 & E1 & L1 & H1). cbn [concat]. rewrite app_length.
    assert (L0 : nth_error (mlog s') (length (mlog s)) = Some (LWrite i k c (length acc + length c <=? size)) -> 
       negb (fails n) = (length acc + length c <=? size)).
    { intros Q. destruct (fails n) eqn:Fn; [|destruct (run_calls fails (S n) chunks) as [l e]]; cbn [fst] in L;
        specialize (L 0 c eq_refl); rewrite !Nat.add_0_r in L; rewrite L in Q; injection Q as Q; rewrite Fn in *; exact Q. }
    assert (G : negb (fails n) = (length acc + length c <=? size)).
    { apply L0. destruct (fails n); [|destruct (run_calls fails (S n) chunks) as [l e]]; cbn [fst map on_writer] in E;
        rewrite (mrun_cons _ _ _ _ E1) in E; destruct (mrun_grows _ _ _ E) as (l' & ->); rewrite L1, <- app_assoc;
        rewrite nth_error_app2 by lia; rewrite Nat.sub_diag; reflexivity. }
    destruct (fails n) eqn:Fn; cbn in G.
    + rewrite <- G in H1. cbn in E. rewrite E1 in E. destruct (close1 _ _ H1) as (s2 & E2 & R & X1 & X2). rewrite E2 in E. injection E as <-.
      symmetry in G. apply Nat.leb_gt in G. split; [lia|]. intros _. split; [exact X1|reflexivity].
    + rewrite <- G in H1. specialize (IH (S n) s1 (acc ++ c)). destruct (run_calls fails (S n) chunks) as [l e] eqn:Q. cbn [fst snd] in *.
      cbn in E. rewrite E1 in E. destruct (IH s' H1 E) as [I1 I2].
      { intros m p N. rewrite L1, app_length. cbn [length]. specialize (L (S m) p N).
        replace (length (mlog s) + 1 + m) with (length (mlog s) + S m) by lia. rewrite L. rewrite Nat.add_succ_r. reflexivity. }
      rewrite app_length in *. rewrite app_assoc. rewrite !Nat.add_assoc in *. split; [exact I1|exact I2].
Qed.
Lemma chunks_exist fails chunks : forall n s acc, holds acc s ->
  (forall m, fails (n + m) = (size <? length acc + length (concat (firstn (S m) chunks))) || ((length acc + length (concat chunks) =? 0) && (length chunks <=? m))) ->
  exists s', mrun s (map (on_writer i) (fst (run_calls fails n chunks))) = Some s' /\
  (forall m p, nth_error (fst (run_calls fails n chunks)) m = Some (CWrite p) ->
     nth_error (mlog s') (length (mlog s) + m) = Some (LWrite i k p (negb (fails (n + m))))) /\
  (at_ s' i (TWrite k (WDone WrEmpty)) -> fails (n + (length (fst (run_calls fails n chunks)) - 1)) = true).
Proof.
  induction chunks as [|c chunks IH]; intros n s acc H F.
  - cbn. destruct (close1 _ _ H) as (s1 & E1 & R & X). rewrite E1. exists s1. split; [reflexivity|].
    split; [intros [|m] p N; [discriminate|destruct m; discriminate]|]. intros X'. rewrite F. destruct acc; [apply orb_true_r|].
    destruct X as [X _]. unfold at_ in *. congruence.
  - cbn [run_calls]. destruct (write1 _ _ c H) as (s1 & E1 & L1 & H1). pose proof (F 0) as F0. rewrite Nat.add_0_r in F0. cbn [firstn concat length Nat.leb] in F0. rewrite app_nil_r, andb_false_r, orb_false_r in F0.
    assert (G : negb (fails n) = (length acc + length c <=? size)).
    { rewrite F0. rewrite <- Nat.leb_antisym. reflexivity. }
    destruct (fails n) eqn:Fn; cbn in G.
    + rewrite <- G in H1, L1. cbn [fst map on_writer mrun]. rewrite E1. destruct (close1 _ _ H1) as (s2 & E2 & R & X1 & X2). rewrite E2.
      exists s2. split; [reflexivity|]. split.
      * intros [|[|[|m]]] p N; try discriminate N. injection N as <-. rewrite X2, L1, <- app_assoc, !Nat.add_0_r, Fn.
        rewrite nth_error_app2 by lia. rewrite Nat.sub_diag. reflexivity.
      * intros _. rewrite F. apply orb_true_iff. left. symmetry in F0. apply Nat.ltb_lt in F0. apply Nat.ltb_lt.
        cbn [length Nat.sub firstn concat]. rewrite app_length. lia.
    + rewrite <- G in H1, L1. symmetry in G. apply Nat.leb_le in G. destruct (IH (S n) s1 (acc ++ c) H1) as (s' & E' & L' & X').
      { intros m. replace (S n + m) with (n + S m) by lia. rewrite F. cbn [firstn concat]. rewrite !app_length, !Nat.add_assoc. f_equal. }
      destruct (run_calls fails (S n) chunks) as [l e] eqn:Q. cbn [fst snd map on_writer mrun] in *. rewrite E1.
      exists s'. split; [exact E'|]. split.
      * intros [|m] p N.
        -- injection N as <-. rewrite !Nat.add_0_r, Fn. destruct (mrun_grows _ _ _ E') as (l' & ->). rewrite L1, <- app_assoc.
           rewrite nth_error_app2 by lia. rewrite Nat.sub_diag. reflexivity.
        -- specialize (L' m p N). rewrite L1, app_length in L'. cbn [length] in L'. replace (length (mlog s) + S m) with (length (mlog s) + 1 + m) by lia.
           rewrite L'. rewrite Nat.add_succ_r. reflexivity.
      * intros A. specialize (X' A). destruct l as [|c0 l].
        { exfalso. clear - Q. destruct chunks; cbn in Q; [discriminate|]. destruct (fails (S n)); [discriminate|]. destruct (run_calls fails (S (S n)) chunks). discriminate. }
        cbn [length] in *. rewrite <- X'. f_equal. lia.
Qed.
End Calls.
Lemma step_free s i k ch s' : at_ s i (TWrite k WOpen) -> mstep s (EvStep i ch) = Some s' -> n_crashed (s_net s) = false /\ u_blk (n_sock (s_net s) k) = None.
Proof.
  intros I H. unfold mstep in H. destruct (n_crashed (s_net s)); [discriminate|]. rewrite I in H. cbn in H. split; [reflexivity|].
  destruct ch; cbn in H; try discriminate; (destruct (u_blk (n_sock (s_net s) k)); [discriminate|reflexivity]).
Qed.
Lemma run_first fails n chunks : exists c cs, fst (run_calls fails n chunks) = c :: cs.
Proof. destruct chunks as [|c chunks]; cbn; [eauto|]. destruct (fails n); [cbn; eauto|]. destruct (run_calls fails (S n) chunks); cbn; eauto. Qed.
Lemma on_writer_step i c : exists ch, on_writer i c = EvStep i ch.
Proof. destruct c; cbn; eauto. Qed.
(* WriteMsg* with a frame that fits *)
Lemma call_fits size s i k f frame s' e : mreach size anything s -> at_ s i (TWrite k WOpen) -> pending i (mlog s) = [] ->
  writes f frame -> frame <> [] -> length frame <= size -> called f s i k s' e ->
  at_ s' i (TWrite k WFlush) /\ pending i (mlog s') = frame.
Proof.
  intros R I P (chunks & <- & W) N L (fails & cs & F & E & A & _). destruct (W fails []) as (e' & W' & _). rewrite W' in F. cbn [app length] in F. injection F as <- <-.
  assert (H : holds size i k [] s).
  { destruct (run_first fails 0 chunks) as (c & cs & Q). rewrite Q in E. cbn in E. destruct (on_writer_step i c) as [ch Q']. rewrite Q' in E.
    destruct (mstep s (EvStep i ch)) as [s1|] eqn:E1; [|discriminate]. destruct (step_free _ _ _ _ _ I E1). repeat split; auto. }
  destruct (chunks_run size i k fails chunks 0 s [] s' H E A) as [X _]. apply X; auto.
Qed.
(* WriteMsg* with a frame that does not fit, or with invalid arguments *)
Lemma call_wedges size s i k f s' e : mreach size anything s -> at_ s i (TWrite k WOpen) -> pending i (mlog s) = [] ->
  (rejects f \/ exists frame, writes f frame /\ size < length frame) -> called f s i k s' e ->
  at_ s' i (TWrite k (WDone WrEmpty)) /\ e <> None.
Proof.
  intros R I P W (fails & cs & F & E & A & _).
  assert (H : forall c cs', cs = c :: cs' -> holds size i k [] s).
  { intros c cs' ->. cbn in E. destruct (on_writer_step i c) as [ch Q']. rewrite Q' in E.
    destruct (mstep s (EvStep i ch)) as [s1|] eqn:E1; [|discriminate]. destruct (step_free _ _ _ _ _ I E1). repeat split; auto. }
  destruct W as [W|(frame & (chunks & <- & W) & L)].
  - destruct (W fails []) as (e' & W' & _). rewrite W' in F. cbn in F. injection F as <- <-. specialize (H _ _ eq_refl).
    destruct (close1 _ _ _ _ _ H) as (s1 & E1 & _ & X & _). cbn in E. rewrite E1 in E. injection E as <-. split; [exact X|discriminate].
  - destruct (W fails []) as (e' & W' & Q & _). rewrite W' in F. cbn [app length] in F, Q. injection F as <- <-.
    assert (H' : holds size i k [] s) by (destruct (run_first fails 0 chunks) as (c & cs & Q'); eauto).
    destruct (chunks_run size i k fails chunks 0 s [] s' H' E A) as [_ X]. destruct (X L) as [X1 X2]. split; [exact X1|]. apply Q. exact X2.
Qed.
Lemma call_exists size s i k f : mreach size anything s -> at_ s i (TWrite k WOpen) -> pending i (mlog s) = [] -> can_step s i ->
  (rejects f \/ exists frame, writes f frame) -> exists s' e, called f s i k s' e.
Proof.
  intros R I P (ch & s1 & E1) W. destruct (step_free _ _ _ _ _ I E1) as [C B]. assert (H : holds size i k [] s) by (repeat split; auto).
  destruct W as [W|(frame & chunks & <- & W)].
  - destruct (W (fun _ => true) []) as (e & We & _). destruct (close1 _ _ _ _ _ H) as (s2 & E2 & _). exists s2, (Some e), (fun _ => true), [CClose].
    split; [exact We|]. cbn. rewrite E2. split; [reflexivity|]. split; [|reflexivity]. intros [|m] p N; [discriminate|destruct m; discriminate].
  - set (fails := fun m => (size <? length (concat (firstn (S m) chunks))) || ((length (concat chunks) =? 0) && (length chunks <=? m))).
    destruct (chunks_exist size i k fails chunks 0 s [] H) as (s' & E & A & X); [reflexivity|].
    destruct (W fails []) as (e & We & _). exists s', e, fails, (fst (run_calls fails 0 chunks)). split; [exact We|]. split; [exact E|]. split; [exact A|exact X].
Qed.
