(* The programs of ModelAccess take locks in order and give them back. *)
From Coq Require Import List Arith Bool Lia.
From Verif Require Import BaseConc ModelAccess SpecAccess ProofAccess ProofAccess2 ProofAccess3.
Import ListNotations.
Open Scope nat_scope.

Lemma below_nil r : below r []. Proof. intros l b []. Qed.
Lemma below_cons r l b h : lrank l < r -> below r h -> below r ((l, b) :: h).
Proof. intros L B l' b' [E|H]; [injection E as <- <-; auto|eauto]. Qed.
Lemma below_le r r' h : r <= r' -> below r h -> below r' h.
Proof. intros L B l b H. specialize (B l b H). lia. Qed.
Ltac bel := first [apply below_nil | apply below_cons; [unfold lrank; cbn [fst rank]; lia|bel] | eapply below_le; [|eassumption]; unfold lrank; cbn [fst rank]; lia].

Lemma x_nop h (Q : list hold -> Prop) : Q h -> wpx h Nop Q. Proof. auto. Qed.
Lemma x_lk h k n (Q : list hold -> Prop) : below (rank k) h -> Q (((k, n), true) :: h) -> wpx h (lock_ k n) Q. Proof. cbn; auto. Qed.
Lemma x_rlk h k n (Q : list hold -> Prop) : below (rank k) h -> Q (((k, n), false) :: h) -> wpx h (rlock k n) Q. Proof. cbn; auto. Qed.
Lemma x_ul h h' k n (Q : list hold -> Prop) : rm ((k, n), true) h = Some h' -> Q h' -> wpx h (unlock k n) Q.
Proof. cbn. unfold hold, lock in *. intros ->. auto. Qed.
Lemma x_rul h h' k n (Q : list hold -> Prop) : rm ((k, n), false) h = Some h' -> Q h' -> wpx h (runlock k n) Q.
Proof. cbn. unfold hold, lock in *. intros ->. auto. Qed.
Lemma x_wr h f n (Q : list hold -> Prop) : Q h -> wpx h (wr f n) Q. Proof. auto. Qed.
Lemma x_rd h f n (Q : list hold -> Prop) : Q h -> wpx h (rd f n) Q. Proof. auto. Qed.
Lemma x_at h f n (Q : list hold -> Prop) : Q h -> wpx h (atomic f n) Q. Proof. auto. Qed.
Lemma x_wait h (Q : list hold -> Prop) : Q h -> wpx h wait Q. Proof. auto. Qed.
Lemma x_alt h c d (Q : list hold -> Prop) : wpx h c Q -> wpx h d Q -> wpx h (Alt c d) Q. Proof. cbn; auto. Qed.
Lemma x_seq h c d (Q : list hold -> Prop) : wpx h c (fun h' => wpx h' d Q) -> wpx h (Seq c d) Q. Proof. cbn; auto. Qed.
Lemma x_rep h c (Q : list hold -> Prop) : wpx h c (fun h' => h' = h) -> Q h -> wpx h (Rep c) Q. Proof. cbn; auto. Qed.
Lemma x_any h f (Q : list hold -> Prop) : (forall n, wpx h (f n) Q) -> wpx h (Any f) Q. Proof. auto. Qed.
Lemma x_if h c (Q : list hold -> Prop) : wpx h c Q -> wpx h (IfFilled c) Q. Proof. auto. Qed.
Lemma x_hook (Q : list hold -> Prop) : Q [] -> wpx [] hook Q. Proof. cbn; auto. Qed.
Lemma x_inner h (Q : list hold -> Prop) : below 1 h -> Q h -> wpx h inner_hook Q. Proof. cbn; auto. Qed.
Ltac xeq := cbn [rm]; unfold hold_eqb, lock_eqb; cbn [fst snd lkind_beq Bool.eqb andb]; rewrite ?Nat.eqb_refl; cbn [andb option_map]; reflexivity.
(* with no lock held *)
Definition calm0 (c : code) : Prop := forall (Q : list hold -> Prop), Q [] -> wpx [] c Q.
Lemma use_calm r c h (Q : list hold -> Prop) : calm r c -> below r h -> Q h -> wpx h c Q. Proof. intros C B q. apply C; auto. Qed.
Lemma use_calm0 c (Q : list hold -> Prop) : calm0 c -> Q [] -> wpx [] c Q. Proof. intros C q. apply C; auto. Qed.
Create HintDb calm.
Ltac unf c := match c with ?f _ _ _ => unfold f | ?f _ _ => unfold f | ?f _ => unfold f | ?f => unfold f end.
Ltac xgo1 :=
  match goal with
  | |- _ = _ => reflexivity
  | |- forall _, _ => intros
  | |- neat _ => unfold neat
  | |- wpx _ _ _ => eapply use_calm; [solve [eauto 1 with calm nocore]|solve [bel]|]
  | |- wpx [] _ _ => eapply use_calm0; [solve [eauto 1 with calm nocore]|]
  | H : below _ ?h, q : ?Q ?h |- ?Q ?h => exact q
  | |- wpx _ (Seq _ _) _ => apply x_seq
  | |- wpx _ Nop _ => apply x_nop
  | |- wpx _ (lock_ _ _) _ => apply x_lk; [solve [bel]|]
  | |- wpx _ (rlock _ _) _ => apply x_rlk; [solve [bel]|]
  | |- wpx _ (unlock _ _) _ => eapply x_ul; [solve [xeq]|]
  | |- wpx _ (runlock _ _) _ => eapply x_rul; [solve [xeq]|]
  | |- wpx _ (wr _ _) _ => apply x_wr
  | |- wpx _ (rd _ _) _ => apply x_rd
  | |- wpx _ (atomic _ _) _ => apply x_at
  | |- wpx _ wait _ => apply x_wait
  | |- wpx _ (Alt _ _) _ => apply x_alt
  | |- wpx _ (Rep _) _ => apply x_rep
  | |- wpx _ (Any _) _ => apply x_any
  | |- wpx _ (IfFilled _) _ => apply x_if
  | |- wpx [] hook _ => apply x_hook
  | |- wpx [] (Hook false) _ => apply x_hook
  | |- wpx _ inner_hook _ => apply x_inner; [solve [bel]|]
  | |- wpx _ (Hook true) _ => apply x_inner; [solve [bel]|]
  | |- wpx _ ?c _ => progress unf c
  | |- _ => progress cbn beta
  | q : _ |- _ => exact q
  end.
Ltac xgo := repeat xgo1.
Ltac cgo := intros ? ? ? ?; xgo.

Lemma n_IsConnected k : calm 7 (IsConnected k). Proof. cgo. Qed.
#[local] Hint Resolve n_IsConnected : calm.
Lemma n_getReader k : calm 4 (getReader k). Proof. cgo. Qed.
#[local] Hint Resolve n_getReader : calm.
Lemma n_writeReader k : calm 4 (writeReader k). Proof. cgo. Qed.
#[local] Hint Resolve n_writeReader : calm.
Lemma n_closeReader k : calm 4 (closeReader k). Proof. cgo. Qed.
#[local] Hint Resolve n_closeReader : calm.
Lemma n_resetReader k : calm 4 (resetReader k). Proof. cgo. Qed.
#[local] Hint Resolve n_resetReader : calm.
Lemma n_buf_write k : calm 2 (buf_write k). Proof. cgo. Qed.
#[local] Hint Resolve n_buf_write : calm.
Lemma n_write_msg k : calm 1 (write_msg k). Proof. cgo. Qed.
#[local] Hint Resolve n_write_msg : calm.
Lemma n_onDisconnect : calm 5 onDisconnect. Proof. cgo. Qed.
#[local] Hint Resolve n_onDisconnect : calm.
Lemma n_sock_Close k : calm 4 (sock_Close k). Proof. cgo. Qed.
#[local] Hint Resolve n_sock_Close : calm.
Lemma n_sock_Read k : calm 3 (sock_Read k). Proof. cgo. Qed.
#[local] Hint Resolve n_sock_Read : calm.
Lemma n_isShuttingDown : calm 6 isShuttingDown. Proof. cgo. Qed.
#[local] Hint Resolve n_isShuttingDown : calm.
Lemma n_trans_Shutdown : calm 4 trans_Shutdown. Proof. cgo. Qed.
#[local] Hint Resolve n_trans_Shutdown : calm.
Lemma n_registry_read : calm 4 registry_read. Proof. cgo. Qed.
#[local] Hint Resolve n_registry_read : calm.
Lemma n_register c : calm 4 (register c). Proof. cgo. Qed.
#[local] Hint Resolve n_register : calm.
Lemma n_deregister c : calm 4 (deregister c None). Proof. cgo. Qed.
#[local] Hint Resolve n_deregister : calm.
Lemma n_deregister1 c : calm 1 (deregister c (Some true)). Proof. cgo. Qed.
#[local] Hint Resolve n_deregister1 : calm.
Lemma n_setSession c : calm 0 (setSession c). Proof. cgo. Qed.
#[local] Hint Resolve n_setSession : calm.
Lemma n_unlink c k : calm 0 (unlink c k). Proof. cgo. Qed.
#[local] Hint Resolve n_unlink : calm.
Lemma n_CloseSession c k : calm 0 (con_CloseSession c k). Proof. cgo. Qed.
#[local] Hint Resolve n_CloseSession : calm.
Lemma n_HasSession c : calm 0 (con_HasSession c). Proof. cgo. Qed.
#[local] Hint Resolve n_HasSession : calm.
Lemma n_Acquire c : calm 6 (sem_Acquire c). Proof. cgo. Qed.
#[local] Hint Resolve n_Acquire : calm.
Lemma n_Release c : calm 6 (sem_Release c). Proof. cgo. Qed.
#[local] Hint Resolve n_Release : calm.
Lemma n_Close c k : calm 0 (con_Close c k). Proof. cgo. Qed.
#[local] Hint Resolve n_Close : calm.
Lemma n_deregisterTask c k : calm 0 (deregisterTask c k). Proof. cgo. Qed.
#[local] Hint Resolve n_deregisterTask : calm.
Lemma n_deregisterHandler c k : calm 0 (deregisterHandler c k). Proof. cgo. Qed.
#[local] Hint Resolve n_deregisterHandler : calm.
Lemma n_deregister0 c : calm0 (deregister c (Some false)). Proof. intros ? ?; xgo. Qed.
#[local] Hint Resolve n_deregister0 : calm.
Lemma n_handleSignal c k : calm0 (handleSignal c k). Proof. intros ? ?; xgo. Qed.
#[local] Hint Resolve n_handleSignal : calm.
Lemma n_handleRequest c k : calm0 (handleRequest c k). Proof. intros ? ?; xgo. Qed.
#[local] Hint Resolve n_handleRequest : calm.
Lemma n_handleSessionRestore c k : calm0 (handleSessionRestore c k). Proof. intros ? ?; xgo. Qed.
#[local] Hint Resolve n_handleSessionRestore : calm.
Lemma n_handleSessionClosure c k : calm0 (handleSessionClosure c k). Proof. intros ? ?; xgo. Qed.
#[local] Hint Resolve n_handleSessionClosure : calm.
Lemma n_handleMessage c k : calm0 (handleMessage c k). Proof. intros ? ?; xgo. Qed.
#[local] Hint Resolve n_handleMessage : calm.

Theorem calls_neat q : neat (code_of q).
Proof. destruct q; cbn [code_of]; xgo. Qed.

Theorem light_calm q : light q -> calm 1 (code_of q).
Proof. destruct q; cbn [light]; intros []; cbn [code_of]; intros h Q B q; xgo. Qed.

Theorem polite_finish p s : (forall q, p_inner p q -> light q) -> ~ p_empty p -> areach p s ->
  exists s', onward p s s' /\ (forall i, ~ unfinished s' i) /\ forall l, st_locks s' l = (false, 0).
Proof. intros H1 H2. apply can_finish; auto. - intros; apply calls_neat. - intros; apply light_calm; auto. Qed.
Theorem polite_free p s : (forall q, p_inner p q -> light q) -> ~ p_empty p -> areach p s -> (forall i, ~ unfinished s i) ->
  forall l, st_locks s l = (false, 0).
Proof.
  intros H1 H2 R N. destruct (xinv_reach p) with (s := s) as [As I]; auto.
  - intros; apply calls_neat.
  - intros; apply light_calm; auto.
  - eapply all_free; eauto.
Qed.
