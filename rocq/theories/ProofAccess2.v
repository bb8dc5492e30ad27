(* The programs of ModelAccess are in order: fields are accessed with their lock held, but for some reads. *)
From Coq Require Import List Arith Bool Lia.
From Verif Require Import BaseConc ModelAccess SpecAccess ProofAccess.
Import ListNotations.
Open Scope nat_scope.

Create HintDb fine.
Section Fine.
Variable lax : field -> Prop.
Hypothesis lax_data : forall k, lax (BufData, k).
Notation wp := (wp lax).
Notation fine := (fine lax).
Lemma lock_eqb_self k n : lock_eqb (k, n) (k, n) = true. Proof. apply lock_eqb_spec; auto. Qed.
Lemma w_nop h (Q : list hold -> Prop) : Q h -> wp h Nop Q. Proof. auto. Qed.
Lemma w_lk h k n (Q : list hold -> Prop) : Q (((k, n), true) :: h) -> wp h (lock_ k n) Q. Proof. auto. Qed.
Lemma w_rlk h k n (Q : list hold -> Prop) : Q (((k, n), false) :: h) -> wp h (rlock k n) Q. Proof. auto. Qed.
Lemma w_ul h h' k n (Q : list hold -> Prop) : rm ((k, n), true) h = Some h' -> Q h' -> wp h (unlock k n) Q.
Proof. cbn. unfold hold, lock in *. intros ->. auto. Qed.
Lemma w_rul h h' k n (Q : list hold -> Prop) : rm ((k, n), false) h = Some h' -> Q h' -> wp h (runlock k n) Q.
Proof. cbn. unfold hold, lock in *. intros ->. auto. Qed.
Lemma w_wr h k f n (Q : list hold -> Prop) : guard f = Some k -> existsb (hold_eqb ((k, n), true)) h = true -> Q h -> wp h (wr f n) Q.
Proof.
  cbn. intros G E q. split; auto. unfold writes_ok; cbn [fst snd]. rewrite G. clear - E.
  induction h as [|y h IH]; cbn in *; [discriminate|]. destruct (hold_eqb _ y); [llia|]. cbn in E. specialize (IH E). llia.
Qed.
Lemma w_rd h k f n (Q : list hold -> Prop) : guard f = Some k -> existsb (fun y => hold_eqb ((k, n), true) y || hold_eqb ((k, n), false) y) h = true -> Q h -> wp h (rd f n) Q.
Proof.
  cbn. intros G E q. split; auto. right. unfold reads_ok; cbn [fst snd]. rewrite G. clear - E.
  induction h as [|y h IH]; cbn in *; [discriminate|]. destruct (hold_eqb (k, n, true) y); [llia|]. destruct (hold_eqb (k, n, false) y); [llia|].
  cbn in E. specialize (IH E). llia.
Qed.
Lemma w_rdl h f n (Q : list hold -> Prop) : lax (f, n) -> Q h -> wp h (rd f n) Q. Proof. cbn. auto. Qed.
Lemma w_at h f n (Q : list hold -> Prop) : guard f = None -> Q h -> wp h (atomic f n) Q. Proof. cbn. auto. Qed.
Lemma w_wait h (Q : list hold -> Prop) : Q h -> wp h wait Q. Proof. auto. Qed.
Lemma w_alt h c d (Q : list hold -> Prop) : wp h c Q -> wp h d Q -> wp h (Alt c d) Q. Proof. cbn; auto. Qed.
Lemma w_rep h c (Q : list hold -> Prop) : fine c -> Q h -> wp h (Rep c) Q.
Proof. cbn. intros F q. split; auto. apply fine_any; auto. Qed.
Lemma w_rep2 h c (Q : list hold -> Prop) : wp h c (fun h' => sub h h') -> Q h -> wp h (Rep c) Q.
Proof. cbn. auto. Qed.
Lemma w_any h f (Q : list hold -> Prop) : (forall n, wp h (f n) Q) -> wp h (Any f) Q. Proof. auto. Qed.
Lemma w_if h c (Q : list hold -> Prop) : Q h -> wp h c Q -> wp h (IfFilled c) Q. Proof. cbn; auto. Qed.
Lemma w_hook h i (Q : list hold -> Prop) : Q h -> wp h (Hook i) Q. Proof. auto. Qed.
Lemma w_fine h c : fine c -> wp h c (fun _ => True).
Proof. intros F. eapply wp_mono; [|apply fine_any, F]. auto. Qed.
Ltac eqbs := cbn [rm existsb]; unfold hold_eqb, lock_eqb; cbn [fst snd lkind_beq Bool.eqb andb orb]; rewrite ?Nat.eqb_refl; cbn [andb orb option_map]; rewrite ?andb_false_r, ?orb_true_r; cbn [andb orb option_map]; reflexivity.
Ltac go1 :=
  match goal with
  | |- True => exact Logic.I
  | |- forall _, _ => intros
  | |- ProofAccess.fine _ (code_of _) => cbn [code_of]
  | |- ProofAccess.wp _ _ _ (fun _ => True) => apply w_fine; solve [auto 3 with fine nocore]
  | |- ProofAccess.wp _ ?h _ (fun h' => sub ?h h') => apply fine_any; solve [auto 3 with fine nocore]
  | |- ProofAccess.fine _ _ => unfold ProofAccess.fine
  | |- ProofAccess.wp _ _ (Seq _ _) _ => apply fine_seq; [solve [auto 3 with fine nocore]|]
  | |- ProofAccess.wp _ _ (Seq _ _) _ => apply wp_seq
  | |- ProofAccess.wp _ _ Nop _ => apply w_nop
  | |- ProofAccess.wp _ _ (lock_ _ _) _ => apply w_lk
  | |- ProofAccess.wp _ _ (rlock _ _) _ => apply w_rlk
  | |- ProofAccess.wp _ _ (unlock _ _) _ => eapply w_ul; [solve [eqbs]|]
  | |- ProofAccess.wp _ _ (runlock _ _) _ => eapply w_rul; [solve [eqbs]|]
  | |- ProofAccess.wp _ _ (wr _ _) _ => eapply w_wr; [reflexivity|solve [eqbs]|]
  | |- ProofAccess.wp _ _ (rd _ _) _ => eapply w_rd; [reflexivity|solve [eqbs]|]
  | |- ProofAccess.wp _ _ (rd _ _) _ => eapply w_rdl; [solve [auto]|]
  | |- ProofAccess.wp _ _ (atomic _ _) _ => apply w_at; [reflexivity|]
  | |- ProofAccess.wp _ _ wait _ => apply w_wait
  | |- ProofAccess.wp _ _ (Alt _ _) _ => apply w_alt
  | |- ProofAccess.wp _ _ (Rep _) _ => apply w_rep; [solve [auto 3 with fine nocore]|]
  | |- ProofAccess.wp _ _ (Rep _) _ => apply w_rep2
  | |- sub _ _ => apply sub_refl
  | |- ProofAccess.wp _ _ (Any _) _ => apply w_any
  | |- ProofAccess.wp _ _ (IfFilled _) _ => apply w_if
  | |- ProofAccess.wp _ _ (Hook _) _ => apply w_hook
  | |- ProofAccess.wp _ _ hook _ => apply w_hook
  | |- ProofAccess.wp _ _ inner_hook _ => apply w_hook
  | |- ProofAccess.wp _ _ ?c _ => progress unfold_head c
  | |- ?q => progress cbn beta
  end
with unfold_head c := match c with
  | ?f _ _ _ => unfold f | ?f _ _ => unfold f | ?f _ => unfold f | ?f => unfold f end.
Ltac go := repeat go1.

Lemma f_IsConnected k : fine (IsConnected k). Proof. go. Qed.
Lemma f_getReader k : fine (getReader k). Proof. go. Qed.
Lemma f_writeReader k : fine (writeReader k). Proof. go. Qed.
Lemma f_closeReader k : fine (closeReader k). Proof. go. Qed.
Lemma f_resetReader k : fine (resetReader k). Proof. go. Qed.
Hint Resolve f_IsConnected f_getReader f_writeReader f_closeReader f_resetReader : fine.
Lemma f_buf_write k : fine (buf_write k). Proof. go. Qed.
Hint Resolve f_buf_write : fine.
Lemma f_write_msg k : fine (write_msg k). Proof. go. Qed.
Lemma f_onDisconnect : fine onDisconnect. Proof. go. Qed.
Hint Resolve f_write_msg f_onDisconnect : fine.
Lemma f_sock_Close k : fine (sock_Close k). Proof. go. Qed.
Hint Resolve f_sock_Close : fine.
Lemma f_sock_Read k : fine (sock_Read k). Proof. go. Qed.
Lemma f_isShuttingDown : fine isShuttingDown. Proof. go. Qed.
Hint Resolve f_sock_Read f_isShuttingDown : fine.
Lemma f_sock_Dial k : fine (sock_Dial k). Proof. go. Qed.
Lemma f_trans_Serve : fine trans_Serve. Proof. go. Qed.
Lemma f_trans_Shutdown : fine trans_Shutdown. Proof. go. Qed.
Hint Resolve f_sock_Dial f_trans_Serve f_trans_Shutdown : fine.
Lemma f_registry_read : fine registry_read. Proof. go. Qed.
Lemma f_activeSessionsNum : fine activeSessionsNum. Proof. go. Qed.
Lemma f_IsActive c : fine (con_IsActive c). Proof. go. Qed.
Lemma f_registerTask c : fine (registerTask c). Proof. go. Qed.
Lemma f_setSession c : fine (setSession c). Proof. go. Qed.
Lemma f_Signal k : fine (con_Signal k). Proof. go. Qed.
Hint Resolve f_registry_read f_activeSessionsNum f_IsActive f_registerTask f_setSession f_Signal : fine.
Lemma f_CloseSession c k : fine (con_CloseSession c k). Proof. go. Qed.
Lemma f_HasSession c : fine (con_HasSession c). Proof. go. Qed.
Lemma f_Session c : fine (con_Session c). Proof. go. Qed.
Lemma f_SessionKey c : fine (con_SessionKey c). Proof. go. Qed.
Lemma f_SessionInfo c : fine (con_SessionInfo c). Proof. go. Qed.
Lemma f_Acquire c : fine (sem_Acquire c). Proof. go. Qed.
Lemma f_Release c : fine (sem_Release c). Proof. go. Qed.
Hint Resolve f_CloseSession f_HasSession f_Session f_SessionKey f_SessionInfo f_Acquire f_Release : fine.
Lemma f_srv_CloseSession : fine srv_CloseSession. Proof. go. Qed.
Lemma f_srv_Shutdown : fine srv_Shutdown. Proof. go. Qed.
Lemma f_rm_deregister m : fine (rm_deregister m). Proof. go. Qed.
Hint Resolve f_srv_CloseSession f_srv_Shutdown f_rm_deregister : fine.
Lemma f_rm_Create m : fine (rm_Create m). Proof. go. Qed.
Lemma f_rm_resolve m : fine (rm_resolve m). Proof. go. Qed.
Lemma f_rm_read m : fine (rm_read m). Proof. go. Qed.
Lemma f_rm_AwaitReply m : fine (rm_AwaitReply m). Proof. go. Qed.
Hint Resolve f_rm_Create f_rm_resolve f_rm_read f_rm_AwaitReply : fine.

Section Lax.
Variable c : nat.
Hypothesis lax_session : lax (Session, c).
Lemma f_deregister d : fine (deregister c d). Proof. destruct d; go. Qed.
Lemma f_register : fine (register c). Proof. go. Qed.
Hint Resolve f_deregister f_register : fine.
Lemma f_unlink k : fine (unlink c k). Proof. go. Qed.
Hint Resolve f_unlink : fine.
Lemma f_deregisterTask k : fine (deregisterTask c k). Proof. go. Qed.
Lemma f_CreateSession k : fine (con_CreateSession c k). Proof. go. Qed.
Lemma f_Close k : fine (con_Close c k). Proof. go. Qed.
Hint Resolve f_deregisterTask f_CreateSession f_Close : fine.
Lemma f_deregisterHandler k : fine (deregisterHandler c k). Proof. go. Qed.
Hint Resolve f_deregisterHandler : fine.
Lemma f_handleSignal k : fine (handleSignal c k). Proof. go. Qed.
Lemma f_handleRequest k : fine (handleRequest c k). Proof. go. Qed.
Lemma f_handleSessionRestore k : fine (handleSessionRestore c k). Proof. go. Qed.
Lemma f_handleSessionClosure k : fine (handleSessionClosure c k). Proof. go. Qed.
Hint Resolve f_handleSignal f_handleRequest f_handleSessionRestore f_handleSessionClosure : fine.
Lemma f_handleMessage k : fine (handleMessage c k). Proof. go. Qed.
Hint Resolve f_handleMessage : fine.
Lemma f_handleConnection k : fine (handleConnection c k). Proof. go. Qed.
Hint Resolve f_handleConnection : fine.
End Lax.
Hint Resolve f_handleSignal f_handleRequest f_handleConnection f_CreateSession f_Close : fine.

Theorem calls_fine q : (forall c, ~ careful c q -> lax (Session, c)) -> fine (code_of q).
Proof.
  intros L. destruct q; cbn [code_of careful] in *; auto with fine nocore;
  (assert (lax (Session, c)) as Lc by (apply L; intros X; apply X; reflexivity)); auto with fine nocore.
Qed.
End Fine.

Definition lax_some (S : nat -> Prop) (x : field) : Prop := (fst x = Session /\ S (snd x)) \/ fst x = BufData.
Lemma fine_free q : fine (lax_some (fun _ => True)) (code_of q).
Proof. apply calls_fine; intros; unfold lax_some; cbn; auto. Qed.
Lemma fine_careful c q : careful c q -> fine (lax_some (fun c' => c' <> c)) (code_of q).
Proof. intros C. apply calls_fine; intros; unfold lax_some; cbn; auto. left; split; auto. intros ->. auto. Qed.

Theorem write_race_free p s x : areach p s -> ~ write_race s x.
Proof. apply (no_write_race (lax_some (fun _ => True))). intros; apply fine_free. Qed.
Theorem race_free p s x : fst x <> Session -> fst x <> BufData -> areach p s -> ~ race s x.
Proof. intros N1 N2 R. apply (no_race (lax_some (fun _ => True)) p); auto; [intros; apply fine_free|]. unfold lax_some. tauto. Qed.
Theorem session_race_free p s c : (forall q, p_call p q \/ p_inner p q -> careful c q) -> areach p s -> ~ race s (Session, c).
Proof.
  intros C R. apply (no_race (lax_some (fun c' => c' <> c)) p); auto; [intros; apply fine_careful; auto|].
  unfold lax_some; cbn. intros [[_ N]|N]; [auto|discriminate].
Qed.
Theorem fatal_free p s i : areach p s -> ~ fatal s i.
Proof. apply (no_fatal (lax_some (fun _ => True))). intros; apply fine_free. Qed.
