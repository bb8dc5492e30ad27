(* What the programs of ModelAccess lock and access. *)
From Coq Require Import List Arith Bool Lia.
From Verif Require Import BaseConc ModelAccess SpecAccess ProofAccess ProofAccess3 ProofAccess4.
Import ListNotations.
Open Scope nat_scope.

Fixpoint occurs (a : act) (c : code) {struct c} : Prop :=
  match c with
  | Nop | Hook _ => False
  | Do b => a = b
  | Seq c d | Alt c d => occurs a c \/ occurs a d
  | Rep c | IfFilled c => occurs a c
  | Any f => exists n, occurs a (f n)
  end.
(* ---------- only what occurs is done ---------- *)
Lemma occurs_inv q s : areach (only [q]) s -> forall i k a, nth_error (st_threads s) i = Some k -> Exists (occurs a) k -> occurs a (code_of q).
Proof.
  induction 1 as [|s s' R IH St]; intros i k a Hk Ex; [destruct i; discriminate|].
  destruct St as [s q' Hq|s j k0 k' Hj N|s j k0 b k' l' Hj N E]; cbn in Hk.
  - destruct (Nat.lt_ge_cases i (length (st_threads s))) as [L|L].
    + rewrite nth_error_app1 in Hk by auto. eauto.
    + rewrite nth_error_app2 in Hk by auto. destruct (i - length (st_threads s)) as [|[|m]]; try discriminate. injection Hk as <-.
      destruct Hq as [<-|[]]. apply Exists_cons in Ex as [Ex|Ex]; [auto|inversion Ex].
  - destruct (Nat.eq_dec j i) as [->|Nj]; [|rewrite nth_set_other in Hk by auto; eauto].
    assert (k = k') as ->. { pose proof (set_nth_eq _ _ k' _ Hj). congruence. }
    remember None as o eqn:Eo. destruct N; try discriminate;
    try (apply (IH _ _ a Hj); repeat (apply Exists_cons in Ex as [Ex|Ex]); solve [apply Exists_cons_hd; cbn; eauto | apply Exists_cons_tl; auto]).
    + apply Exists_cons in Ex as [Ex|Ex]; [|eauto]. destruct i0; [destruct H|]. destruct H as [<-|[]]. auto.
  - destruct (Nat.eq_dec j i) as [->|Nj]; [|rewrite nth_set_other in Hk by auto; eauto].
    assert (k = k') as ->. { pose proof (set_nth_eq _ _ k' _ Hj). congruence. }
    apply next_act in N. subst k0. apply (IH _ _ a Hj). apply Exists_cons_tl; auto.
Qed.

(* ---------- all that occurs is done, by a goroutine on its own ---------- *)
Section Solo.
Variable p : policy.
Definition solo (h : list hold) (s : state) (k : list code) : Prop := st_threads s = [k] /\ tally (st_locks s) [h].
Lemma solo_silent h s k k' : areach p s -> solo h s k -> next p k None k' -> exists s', areach p s' /\ solo h s' k'.
Proof.
  intros R [Th T] N. eexists; split; [eapply AR_step; [exact R|eapply (St_silent p s 0); [rewrite Th; reflexivity|exact N]]|].
  split; cbn; [rewrite Th; reflexivity|exact T].
Qed.
Lemma solo_act h s a k h' : areach p s -> solo h s (Do a :: k) -> after a h = Some h' ->
  (forall l, a = Lk l \/ a = RLk l -> below (lrank l) h) -> exists s', areach p s' /\ solo h' s' k.
Proof.
  intros R [Th T] Af Be.
  assert (exists l', effect (st_locks s) a = Some l') as [l' E].
  { assert (forall l, below (lrank l) h -> st_locks s l = (false, 0)) as Free.
    { intros l B. destruct (T l) as (T1 & T2 & T3). cbn in T1, T2.
      assert (forall b, count (l, b) h = 0) as Z.
      { intros b. destruct (count (l, b) h) eqn:C; auto. assert (In (l, b) h) as H by (apply count_In; lia). specialize (B _ _ H). lia. }
      rewrite !Z in *. destruct (st_locks s l) as [[|] n]; cbn in *; [discriminate|subst; auto]. }
    destruct a; cbn; eauto.
    - rewrite Free by (apply Be; auto). eauto.
    - cbn in Af. pose proof (count_rm _ (l, true) _ _ Af) as C. rewrite hold_eqb_refl in C. destruct (T l) as (T1 & _). cbn in T1.
      destruct (st_locks s l) as [[|] n]; cbn in *; [eauto|lia].
    - rewrite Free by (apply Be; auto). eauto.
    - cbn in Af. pose proof (count_rm _ (l, false) _ _ Af) as C. rewrite hold_eqb_refl in C. destruct (T l) as (_ & T2 & _). cbn in T2.
      destruct (st_locks s l) as [e [|n]]; cbn in *; [lia|eauto]. }
  eexists; split; [eapply AR_step; [exact R|eapply (St_act p s 0); [rewrite Th; reflexivity|constructor|exact E]]|].
  split; cbn; [rewrite Th; reflexivity|]. eapply (tally_act _ [h] 0); eauto. reflexivity.
Qed.
Lemma wpx_do h a (Q : list hold -> Prop) : wpx h (Do a) Q -> exists h', after a h = Some h' /\ Q h' /\ forall l, a = Lk l \/ a = RLk l -> below (lrank l) h.
Proof.
  destruct a; cbn [wpx after]; intros W.
  1, 3: destruct W as [B W]; eexists; split; [reflexivity|]; split; [exact W|]; intros l' [E|E]; inversion E; subst; auto.
  1, 2: destruct (rm _ h); [|easy]; eexists; split; [reflexivity|]; split; [exact W|]; intros l' [E|E]; discriminate.
  all: eexists; split; [reflexivity|]; split; [exact W|]; intros l' [E|E]; discriminate.
Qed.
(* going past c *)
Lemma pass c : forall h s k (Q : list hold -> Prop), areach p s -> solo h s (c :: k) -> wpx h c Q -> exists s' h', areach p s' /\ solo h' s' k /\ Q h'.
Proof.
  induction c as [|a|c1 IH1 c2 IH2|c1 IH1 c2 IH2|c IH|f IH|c IH|i]; intros h s k Q R So W.
  - destruct (solo_silent _ _ _ _ R So (Nx_nop p k)) as (s' & R' & S'). eauto.
  - destruct (wpx_do _ _ _ W) as (h' & Af & q & Be). destruct (solo_act _ _ _ _ _ R So Af Be) as (s' & R' & S'). eauto.
  - destruct (solo_silent _ _ _ _ R So (Nx_seq p c1 c2 k)) as (s' & R' & S'). cbn in W.
    destruct (IH1 _ _ _ _ R' S' W) as (s2 & h2 & R2 & S2 & W2). eapply IH2; eauto.
  - destruct (solo_silent _ _ _ _ R So (Nx_alt1 p c1 c2 k)) as (s' & R' & S'). cbn in W. destruct W. eapply IH1; eauto.
  - destruct (solo_silent _ _ _ _ R So (Nx_rep0 p c k)) as (s' & R' & S'). cbn in W. destruct W. eauto.
  - destruct (solo_silent _ _ _ _ R So (Nx_any p f 0 k)) as (s' & R' & S'). cbn in W. eapply IH; eauto.
  - destruct (solo_silent _ _ _ _ R So (Nx_filled p c k)) as (s' & R' & S'). cbn in W. eapply IH; eauto.
  - destruct (solo_silent _ _ _ _ R So (Nx_hook0 p i k)) as (s' & R' & S'). cbn in W. destruct W. eauto.
Qed.
Lemma get_to a c : forall h s k (Q : list hold -> Prop), areach p s -> solo h s (c :: k) -> wpx h c Q -> occurs a c -> exists s' i, areach p s' /\ about s' i a.
Proof.
  induction c as [|b|c1 IH1 c2 IH2|c1 IH1 c2 IH2|c IH|f IH|c IH|i]; intros h s k Q R So W O; cbn in O; try easy.
  - subst b. exists s, 0. split; auto. destruct So as [Th _]. exists k. rewrite Th. reflexivity.
  - destruct (solo_silent _ _ _ _ R So (Nx_seq p c1 c2 k)) as (s' & R' & S'). cbn in W. destruct O as [O|O]; [eauto|].
    destruct (pass _ _ _ _ _ R' S' W) as (s2 & h2 & R2 & S2 & W2). eauto.
  - cbn in W. destruct W, O as [O|O].
    + destruct (solo_silent _ _ _ _ R So (Nx_alt1 p c1 c2 k)) as (s' & R' & S'). eauto.
    + destruct (solo_silent _ _ _ _ R So (Nx_alt2 p c1 c2 k)) as (s' & R' & S'). eauto.
  - destruct (solo_silent _ _ _ _ R So (Nx_rep p c k)) as (s' & R' & S'). cbn in W. destruct W. eauto.
  - destruct O as [n O]. destruct (solo_silent _ _ _ _ R So (Nx_any p f n k)) as (s' & R' & S'). cbn in W. eauto.
  - destruct (solo_silent _ _ _ _ R So (Nx_filled p c k)) as (s' & R' & S'). cbn in W. eauto.
Qed.
End Solo.
Theorem does_occurs q a : (exists s i, areach (only [q]) s /\ about s i a) <-> occurs a (code_of q).
Proof.
  split.
  - intros (s & i & R & k & Hk). eapply occurs_inv; eauto. apply Exists_cons_hd. reflexivity.
  - intros O. set (s := MkState (fun _ => (false, 0)) [[code_of q]]).
    assert (areach (only [q]) s) as R. { eapply AR_step; [constructor|]. apply (St_call (only [q]) new_state q). cbn; auto. }
    eapply (get_to _ a (code_of q) [] s []); [exact R| |apply calls_neat|exact O].
    split; [reflexivity|]. intros l; cbn; auto.
Qed.

(* ---------- the table ---------- *)
Ltac ors := repeat match goal with H : _ \/ _ |- _ => destruct H | H : False |- _ => destruct H | H : exists _, _ |- _ => destruct H end.
Ltac pick :=
  match goal with
  | |- _ = _ => reflexivity
  | |- False => fail
  | |- In _ (closing _) => first [assumption | unfold closing, locked; cbn [In app]; pick]
  | |- In _ (sending _) => first [assumption | unfold sending, locked; cbn [In app]; pick]
  | |- _ \/ _ => first [left; pick | right; pick]
  | |- _ => assumption
  end.
Ltac flat := cbv [lock_ unlock rlock runlock rd wr atomic wait hook inner_hook IsConnected getReader writeReader closeReader resetReader onBufferFlush buf_write buf_close onDisconnect sock_Read isShuttingDown sock_Dial trans_Serve trans_Shutdown register deregister registry_read activeSessionsNum con_IsActive registerTask setSession deregisterTask con_Signal notifySessionCreated con_CreateSession con_HasSession con_Session con_SessionKey con_SessionInfo con_Close sem_Acquire sem_Release registerHandler handleSignal handleRequest handleSessionRestore handleSessionClosure handleMessage handleConnection srv_Shutdown srv_CloseSession rm_deregister rm_Create rm_resolve rm_read rm_AwaitReply code_of].
Ltac sets := unfold leaving, disconnecting, reading, registering, setting, locked, rlocked; rewrite ?in_app_iff; cbn [In].
Ltac tab := flat; cbn [occurs]; sets; (split; intros; ors; subst; pick).
Lemma o_msg a k : occurs a (write_msg k) <-> In a (sending k). Proof. unfold write_msg, sending. tab. Qed.
Lemma o_close a k : occurs a (sock_Close k) <-> In a (closing k). Proof. unfold sock_Close, closing. tab. Qed.
Ltac tab1 := flat; cbn [occurs]; rewrite ?o_msg, ?o_close; sets; (split; intros; ors; subst; pick).
Lemma o_unlink a c k : occurs a (unlink c k) <-> In a (disconnecting c k). Proof. unfold unlink. tab1. Qed.
Lemma o_CloseSession a c k : occurs a (con_CloseSession c k) <-> In a (setting c ++ registering c ++ sending k). Proof. unfold con_CloseSession. tab1. Qed.
Ltac tab2 := flat; cbn [occurs]; rewrite ?o_unlink, ?o_msg, ?o_close; sets; (split; intros; ors; subst; pick).
Lemma o_leave a c k : occurs a (deregisterHandler c k) <-> In a (leaving c k). Proof. unfold deregisterHandler. tab2. Qed.
Ltac tab3 := flat; cbn [occurs]; rewrite ?o_leave, ?o_unlink, ?o_msg, ?o_close; sets; (split; intros; ors; subst; pick).
Lemma table_shutdown a : occurs a srv_Shutdown <-> does CShutdown a.
Proof.
  assert (occurs a (Any sock_Close) <-> exists k, In a (closing k)) as E by (cbn [occurs]; split; intros [k H]; exists k; apply o_close; auto).
  unfold does. rewrite <- E. flat. remember (Any sock_Close) as cl. cbn [occurs]. subst cl. sets. rewrite !E.
  assert (In a [Lk (TransLock, 0); Ul (TransLock, 0); Wait] -> exists k, In a (closing k)) as X by (intros H; exists 0; unfold closing; sets; cbn [In] in H; ors; subst; pick).
  cbn [In] in X. revert X. generalize (exists k, In a (closing k)). intros P X. split; [|intros; ors; subst; pick]. intros; ors; subst; try pick; right; apply X; pick.
Qed.
Lemma table_close a : occurs a srv_CloseSession <-> does CSrvCloseSession a.
Proof.
  assert (occurs a (Any (fun c => Any (fun k => con_CloseSession c k))) <-> exists c k, In a (setting c ++ registering c ++ sending k)) as E.
  { cbn [occurs]; split; intros (c & k & H); exists c, k; apply o_CloseSession; auto. }
  unfold does. flat. remember (Any (fun c => Any (fun k => con_CloseSession c k))) as cl. cbn [occurs]. subst cl. rewrite E.
  generalize (exists c k, In a (setting c ++ registering c ++ sending k)). intros P. sets. split; intros; ors; subst; pick.
Qed.
Ltac pick2 :=
  match goal with
  | |- In _ (leaving _ _) => first [assumption | sets; pick]
  | |- _ \/ _ => first [left; pick2 | right; pick2]
  | |- _ => pick
  end.
Lemma table_conn a c k : occurs a (handleConnection c k) <-> does (CHandleConnection c k) a.
Proof.
  unfold does. flat; cbn [occurs]; rewrite ?o_leave, ?o_unlink, ?o_msg, ?o_close.
  unfold reading, locked, rlocked. rewrite ?in_app_iff. cbn [In]. split; intros H.
  - ors; subst; try pick2. match goal with H : In _ (disconnecting _ _) |- _ => revert H end. intros H. do 14 right. unfold leaving. rewrite ?in_app_iff. tauto.
  - ors; subst; try pick2.
Qed.
Theorem table q a : occurs a (code_of q) <-> does q a.
Proof.
  destruct q; first [apply table_shutdown | apply table_close | apply o_CloseSession | apply table_conn | idtac]; cbn [code_of does]; tab3.
Qed.
