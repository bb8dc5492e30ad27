(* Invariants of the dispatch model *)
From Coq Require Import List Arith ZArith Lia Bool.
From Verif Require Import BaseBytes BaseConc ModelMessage ModelWrite ModelHandle ModelDispatch.
From Verif Require Import SpecWire SpecMessage SpecWrite SpecHandle SpecDispatch.
From Verif Require Import ProofMessage ProofWire ProofCodec ProofHandle.
Import ListNotations.
Open Scope nat_scope.

Local Arguments Nat.ltb : simpl never.
Local Arguments Nat.eqb : simpl never.
Local Arguments Nat.leb : simpl never.
Local Arguments Z.add : simpl never.
Local Arguments Z.sub : simpl never.
Local Arguments Z.opp : simpl never.
Local Arguments Z.modulo : simpl never.
Local Arguments Z.ltb : simpl never.
Local Arguments Z.of_nat : simpl never.

(* ---------- steps ---------- *)
Definition opt_list {A} (o : option A) : list A := match o with Some x => [x] | None => [] end.

(* the cases of a thread step *)
Section Cases.
Variables (g : srv).
Section Job.
Variables (c k : nat) (m : message).
Notation x := (v_conn g c).
Inductive jcase : jstate -> choice -> srv -> option jstate -> Prop :=
| J_start : jcase JStart Go (log (LStart c k m) g) (Some JRun)
| J_ret_req r : route_of (m_type m) = RtRequest -> jcase JRun (ChRet r) (log (LEnd c k) g) (Some (JRep r))
| J_ret_sig r : route_of (m_type m) <> RtRequest -> jcase JRun (ChRet r) (log (LEnd c k) g) (Some JOps)
| J_rep_crash r ok : handleRequest sink_writer (writer_of ok) m r = None ->
    jcase (JRep r) (ChWriter ok) (crash g) (Some (JRep r))
| J_rep r ok st : handleRequest sink_writer (writer_of ok) m r = Some st ->
    jcase (JRep r) (ChWriter ok) (log (LReply c k m r st) g) (Some JOps)
| J_int : jcase JInt Go (log (LSession c k m) g) (Some JOps)
| J_ops_crash : v_shutdown g = true -> ((v_ops g - 1) mod 2 ^ 32 < 1)%Z -> v_rdy g = true ->
    jcase JOps Go (crash g) (Some JOps)
| J_ops_rdy : v_shutdown g = true -> ((v_ops g - 1) mod 2 ^ 32 < 1)%Z -> v_rdy g = false ->
    jcase JOps Go (with_ops ((v_ops g - 1) mod 2 ^ 32) true g) (Some JTask)
| J_ops : v_shutdown g = false \/ (1 <= (v_ops g - 1) mod 2 ^ 32)%Z ->
    jcase JOps Go (with_ops ((v_ops g - 1) mod 2 ^ 32) (v_rdy g) g) (Some JTask)
| J_task_unlink : c_active x = false -> (c_tasks x - 1 < 1)%Z ->
    jcase JTask Go (with_conn g c (set_tasks x (c_tasks x - 1))) (Some JUnlink)
| J_task : c_active x = true \/ (1 <= c_tasks x - 1)%Z ->
    jcase JTask Go (with_conn g c (set_tasks x (c_tasks x - 1))) (Some JSlot)
| J_unlink : jcase JUnlink Go (log (LUnlink c) g) (Some JSlot)
| J_slot_crash : (1 < c_limit x)%Z -> (c_slots x - 1 < 0)%Z -> jcase JSlot Go (crash g) (Some JSlot)
| J_slot : (1 < c_limit x)%Z -> (0 <= c_slots x - 1)%Z ->
    jcase JSlot Go (with_conn g c (set_slots x (c_slots x - 1))) None
| J_noslot : (c_limit x <= 1)%Z -> jcase JSlot Go g None.
Lemma job_inv j ch g' j' : job_step g c k m j ch = Some (g', j') -> jcase j ch g' j'.
Proof.
  unfold job_step. cbv zeta. destruct j, ch; try discriminate; intros H.
  - injection H as <- <-. constructor.
  - destruct (route_of (m_type m)) eqn:E; injection H as <- <-; constructor; congruence.
  - destruct (handleRequest _ _ _ _) eqn:E; injection H as <- <-; econstructor; exact E.
  - injection H as <- <-. constructor.
  - destruct (v_shutdown g) eqn:S; cbn [andb] in H.
    + destruct (Z.ltb_spec ((v_ops g - 1) mod 2 ^ 32) 1) as [L|L].
      * destruct (v_rdy g) eqn:Rd; injection H as <- <-; [apply J_ops_crash|apply J_ops_rdy]; auto.
      * injection H as <- <-. apply J_ops. auto.
    + injection H as <- <-. apply J_ops. auto.
  - cbn [set_tasks c_active c_tasks] in H. destruct (c_active x) eqn:A; cbn [negb andb] in H.
    + injection H as <- <-. apply J_task. auto.
    + destruct (Z.ltb_spec (c_tasks x - 1) 1); injection H as <- <-; [apply J_task_unlink|apply J_task]; auto.
  - injection H as <- <-. constructor.
  - destruct (Z.ltb_spec 1 (c_limit x)).
    + destruct (Z.ltb_spec (c_slots x - 1) 0); injection H as <- <-; [apply J_slot_crash|apply J_slot]; auto.
    + injection H as <- <-. apply J_noslot. lia.
Qed.
End Job.
Section Read.
Variable (c : nat).
Notation x := (v_conn g c).
Inductive rcase : rstate -> choice -> srv -> rstate -> option thread -> Prop :=
| R_hook : rcase RHook Go (log (LConnected c) g) RHookIn None
| R_hookin : rcase RHookIn Go g RWait None
| R_frame_crash b : ReadBytes (NewMessage (v_buf g)) b = None ->
    rcase RWait (ChFrame b) (crash g) RWait None
| R_frame b m : ReadBytes (NewMessage (v_buf g)) b = Some (m, true, None) ->
    rcase RWait (ChFrame b) (log (LFrame c (c_next x) b (Some m)) (with_conn g c (bump x))) (RGot (c_next x) m) None
| R_frame_bad b m ok e : ReadBytes (NewMessage (v_buf g)) b = Some (m, ok, e) -> ok = false \/ e <> None ->
    rcase RWait (ChFrame b) (log (LFrame c (c_next x) b None) (with_conn g c (bump x))) RClose None
| R_err : rcase RWait ChErr (log (LReadErr c) g) RClose None
| R_heartbeat k m : m_type m = MsgHeartbeat -> rcase (RGot k m) Go g RWait None
| R_dropped k m : m_type m <> MsgHeartbeat -> c_active x = false ->
    rcase (RGot k m) Go (log (LDropped c k m) g) RWait None
| R_toslot k m : m_type m <> MsgHeartbeat -> c_active x = true -> (1 < c_limit x)%Z ->
    rcase (RGot k m) Go g (RSlot k m) None
| R_toops k m : m_type m <> MsgHeartbeat -> c_active x = true -> (c_limit x <= 1)%Z ->
    rcase (RGot k m) Go g (ROps k m) None
| R_slot k m : (c_slots x < c_limit x)%Z ->
    rcase (RSlot k m) Go (with_conn g c (set_slots x (c_slots x + 1))) (ROps k m) None
| R_ops_fail k m : v_shutdown g = true -> RequiresReply m = true -> rcase (ROps k m) Go g (RFail k m) None
| R_ops_late k m : v_shutdown g = true -> RequiresReply m = false -> rcase (ROps k m) Go g (RReg k m) None
| R_ops k m : v_shutdown g = false ->
    rcase (ROps k m) Go (with_ops ((v_ops g + 1) mod 2 ^ 32) (v_rdy g) g) (RReg k m) None
| R_fail_crash k m ok : failMsgShutdown sink_writer (writer_of ok) m = None ->
    rcase (RFail k m) (ChWriter ok) (crash g) (RFail k m) None
| R_fail k m ok st : failMsgShutdown sink_writer (writer_of ok) m = Some st ->
    rcase (RFail k m) (ChWriter ok) (log (LShutReply c k m st) g) RWait None
| R_reg k m : rcase (RReg k m) Go (with_conn g c (set_tasks x (c_tasks x + 1))) (RDisp k m) None
| R_spawn k m : route_of (m_type m) = RtSignal \/ route_of (m_type m) = RtRequest -> async (c_limit x) = true ->
    rcase (RDisp k m) Go g RWait (Some (TJob c k m JStart))
| R_call k m : route_of (m_type m) = RtSignal \/ route_of (m_type m) = RtRequest -> async (c_limit x) = false ->
    rcase (RDisp k m) Go g (RJob k m JStart) None
| R_int k m : route_of (m_type m) = RtRestore \/ route_of (m_type m) = RtClosure ->
    rcase (RDisp k m) Go g (RJob k m JInt) None
| R_none k m : route_of (m_type m) = RtNone \/ route_of (m_type m) = RtSkip ->
    rcase (RDisp k m) Go g (RJob k m JOps) None
| R_job k m j ch g' j' : jcase c k m j ch g' (Some j') -> rcase (RJob k m j) ch g' (RJob k m j') None
| R_jobdone k m j ch g' : jcase c k m j ch g' None -> rcase (RJob k m j) ch g' RWait None
| R_close_twice : c_active x = false -> rcase RClose Go g RBye None
| R_close_unlink : c_active x = true -> (c_tasks x < 1)%Z ->
    rcase RClose Go (with_conn g c (set_inactive x)) RUnlink None
| R_close : c_active x = true -> (1 <= c_tasks x)%Z ->
    rcase RClose Go (with_conn g c (set_inactive x)) RBye None
| R_unlink : rcase RUnlink Go (log (LUnlink c) g) RBye None
| R_bye : rcase RBye Go (log (LDisconnected c) g) REnd None.
Lemma rd_inv s ch g' s' sp : rd_step g c s ch = Some (g', s', sp) -> rcase s ch g' s' sp.
Proof.
  unfold rd_step. cbv zeta. destruct s.
  10: { destruct (job_step g c k m j ch) as [[g1 [j1|]]|] eqn:E; [| |discriminate]; apply job_inv in E;
        intros H; injection H as <- <- <-; econstructor; exact E. }
  all: destruct ch; try discriminate; intros H.
  - injection H as <- <- <-. constructor.
  - injection H as <- <- <-. constructor.
  - destruct (ReadBytes _ b) as [[[m ok] e]|] eqn:E; [|injection H as <- <- <-; constructor; exact E].
    destruct ok; [destruct e|]; injection H as <- <- <-; econstructor; try exact E; auto. right; discriminate.
  - injection H as <- <- <-. constructor.
  - destruct (beq (m_type m) MsgHeartbeat) eqn:E; [apply beq_eq in E|apply beq_neq in E].
    { injection H as <- <- <-. constructor. exact E. }
    destruct (c_active x) eqn:A; cbn [negb] in H; [|injection H as <- <- <-; constructor; assumption].
    destruct (Z.ltb_spec 1 (c_limit x)); injection H as <- <- <-; constructor; auto.
  - destruct (Z.ltb_spec (c_slots x) (c_limit x)); [|discriminate]. injection H as <- <- <-. constructor. assumption.
  - destruct (v_shutdown g) eqn:S; [|injection H as <- <- <-; constructor; assumption].
    destruct (RequiresReply m) eqn:Q; injection H as <- <- <-; constructor; assumption.
  - destruct (failMsgShutdown _ _ _) eqn:E; injection H as <- <- <-; econstructor; exact E.
  - injection H as <- <- <-. constructor.
  - destruct (route_of (m_type m)) eqn:E; try (injection H as <- <- <-; constructor; auto; fail);
      (destruct (async (c_limit x)) eqn:A; injection H as <- <- <-; constructor; auto).
  - destruct (c_active x) eqn:A; cbn [negb] in H; [|injection H as <- <- <-; constructor; assumption].
    destruct (Z.ltb_spec (c_tasks x) 1); injection H as <- <- <-; constructor; assumption.
  - injection H as <- <- <-. constructor.
  - injection H as <- <- <-. constructor.
Qed.
End Read.
Inductive tcase (i : nat) : thread -> choice -> srv -> thread -> option thread -> Prop :=
| T_refused lim : tcase i (TNew lim) (ChConf false) g TEnd None
| T_new lim : tcase i (TNew lim) (ChConf true)
    (MkSrv (v_buf g) (v_shutdown g) (v_ops g) (v_rdy g) (v_crashed g) (S (v_n g))
           (upd (v_conn g) (v_n g) (MkConn lim true 0 0 0)) (v_log g)) (TRd (v_n g) RHook) None
| T_rd c s ch g' s' sp : rcase c s ch g' s' sp -> tcase i (TRd c s) ch g' (TRd c s') sp
| T_job c k m j ch g' j' : jcase c k m j ch g' (Some j') -> tcase i (TJob c k m j) ch g' (TJob c k m j') None
| T_jobdone c k m j ch g' : jcase c k m j ch g' None -> tcase i (TJob c k m j) ch g' TEnd None
| T_close_twice c : c_active (v_conn g c) = false -> tcase i (TCl0 c) Go g (TClR c) None
| T_close_unlink c : c_active (v_conn g c) = true -> (c_tasks (v_conn g c) < 1)%Z ->
    tcase i (TCl0 c) Go (with_conn g c (set_inactive (v_conn g c))) (TClU c) None
| T_close c : c_active (v_conn g c) = true -> (1 <= c_tasks (v_conn g c))%Z ->
    tcase i (TCl0 c) Go (with_conn g c (set_inactive (v_conn g c))) (TClR c) None
| T_unlink c : tcase i (TClU c) Go (log (LUnlink c) g) (TClR c) None
| T_shut_now : (v_ops g < 1)%Z -> tcase i TSh0 Go (log (LShutdown i) (set_shutdown g)) TShT None
| T_shut_wait : (1 <= v_ops g)%Z -> tcase i TSh0 Go (log (LShutdown i) (set_shutdown g)) TShW None
| T_shut_rdy : v_rdy g = true -> tcase i TShW Go g TShT None
| T_shut_ret : tcase i TShT Go (log (LShutReturn i) g) TShR None.
Lemma tstep_inv i t ch g' t' sp : tstep g i t ch = Some (g', t', sp) -> tcase i t ch g' t' sp.
Proof.
  unfold tstep. destruct t.
  3: { destruct (rd_step g c s ch) as [[[g1 s1] sp1]|] eqn:E; [|discriminate]. apply rd_inv in E.
       intros H. injection H as <- <- <-. constructor. exact E. }
  3: { destruct (job_step g c k m j ch) as [[g1 [j1|]]|] eqn:E; [| |discriminate]; apply job_inv in E;
        intros H; injection H as <- <- <-; econstructor; exact E. }
  all: destruct ch; try discriminate; intros H; cbv zeta in H.
  - destruct ok; injection H as <- <- <-; constructor.
  - destruct (c_active (v_conn g c)) eqn:A; cbn [negb] in H; [|injection H as <- <- <-; constructor; assumption].
    destruct (Z.ltb_spec (c_tasks (v_conn g c)) 1); injection H as <- <- <-; constructor; assumption.
  - injection H as <- <- <-. constructor.
  - destruct (Z.ltb_spec (v_ops g) 1); injection H as <- <- <-; constructor; assumption.
  - destruct (v_rdy g) eqn:A; [|discriminate]. injection H as <- <- <-. constructor. exact A.
  - injection H as <- <- <-. constructor.
Qed.
End Cases.
(* case analysis of a thread step *)
Ltac inv_tstep H :=
  apply tstep_inv in H; destruct H;
  repeat match goal with
  | J : rcase _ _ _ _ _ _ _ |- _ => destruct J
  | J : jcase _ _ _ _ _ _ _ (Some ?x) |- _ => is_var x; remember (Some x) as sx eqn:Esx in J; destruct J; (discriminate Esx || (injection Esx as <-))
  | J : jcase _ _ _ _ _ _ _ None |- _ => remember None as sx eqn:Esx in J; destruct J; try discriminate Esx
  end.

Lemma dstep_inv s e s' : dstep s e = Some s' ->
  v_crashed (s_srv s) = false /\
  ((exists t, (match e with EvConnect lim => t = TNew lim | EvClose c => t = TCl0 c /\ c < v_n (s_srv s)
                          | EvShutdown => t = TSh0 | EvStep _ _ => False end) /\
              s' = MkSys (s_srv s) (s_ts s ++ [t])) \/
   (exists i ch t g' t' sp, e = EvStep i ch /\ nth_error (s_ts s) i = Some t /\
      tstep (s_srv s) i t ch = Some (g', t', sp) /\
      s' = MkSys g' (set_nth (s_ts s) i t' ++ opt_list sp))).
Proof.
  unfold dstep. destruct (v_crashed (s_srv s)) eqn:C; [discriminate|]. intros H. split; [reflexivity|].
  destruct e as [lim|c| |i ch].
  - left. injection H as <-. eauto.
  - left. destruct (Nat.ltb_spec c (v_n (s_srv s))); [|discriminate]. injection H as <-. eauto.
  - left. injection H as <-. eauto.
  - right. destruct (nth_error (s_ts s) i) as [t|] eqn:E; [|discriminate].
    destruct (tstep (s_srv s) i t ch) as [[[g' t'] sp]|] eqn:T; [|discriminate]. injection H as <-.
    exists i, ch, t, g', t', sp. auto.
Qed.

(* what never shrinks *)
Record ext (g g' : srv) : Prop := {
  e_buf : v_buf g' = v_buf g;
  e_n : v_n g <= v_n g';
  e_log : exists l, v_log g' = v_log g ++ l;
  e_shut : v_shutdown g = true -> v_shutdown g' = true;
  e_lim : forall c, c < v_n g -> c_limit (v_conn g' c) = c_limit (v_conn g c);
  e_next : forall c, c < v_n g -> c_next (v_conn g c) <= c_next (v_conn g' c);
  e_act : forall c, c < v_n g -> c_active (v_conn g' c) = true -> c_active (v_conn g c) = true }.
Lemma ext_refl g : ext g g.
Proof. constructor; auto. exists []. symmetry. apply app_nil_r. Qed.

Lemma tstep_ext g i t ch g' t' sp : tstep g i t ch = Some (g', t', sp) -> ext g g'.
Proof.
  intros H. inv_tstep H; constructor; cbn; auto; try lia; try (exists []; now rewrite app_nil_r);
    try (eexists; reflexivity);
    try (intros c' L; unfold upd; destruct (Nat.eqb_spec c' c) as [->|]; cbn; auto; lia);
    try (intros c' L; unfold upd; destruct (Nat.eqb_spec c' (v_n g)) as [->|]; cbn; auto; lia).
  all: try (intros c' L; unfold upd; destruct (Nat.eqb_spec c' c) as [->|]; cbn; auto; try congruence; lia).
Qed.

(* ---------- invariant schemes ---------- *)
Section Schemes.
Variables (buf : nat) (ok : sys -> ev -> Prop).

Definition tstep_of (s : sys) i ch t g' t' sp :=
  dreach buf ok s /\ ok s (EvStep i ch) /\ nth_error (s_ts s) i = Some t /\
  tstep (s_srv s) i t ch = Some (g', t', sp).

(* sums over threads and the server state *)
Definition osum (b : thread -> Z) (sp : option thread) : Z := match sp with Some x => b x | None => 0%Z end.
Lemma linear (f : srv -> Z) (b : thread -> Z) :
  f (s_srv (new_server buf)) = 0%Z ->
  (forall lim, b (TNew lim) = 0%Z) -> (forall c, b (TCl0 c) = 0%Z) -> b TSh0 = 0%Z ->
  (forall s i ch t g' t' sp, tstep_of s i ch t g' t' sp ->
     (f g' + b t' + osum b sp = f (s_srv s) + b t)%Z) ->
  forall s, dreach buf ok s -> (f (s_srv s) + zsum b (s_ts s) = 0)%Z.
Proof.
  intros F0 B1 B2 B3 St s R. induction R as [|s e s' R IH Ok H]; [rewrite F0; reflexivity|].
  destruct (dstep_inv _ _ _ H) as (_ & [(t & T & ->)|(i & ch & t & g' & t' & sp & -> & N & T & ->)]).
  - cbn [s_srv s_ts]. rewrite zsum_snoc. destruct e as [lim|c| |]; try contradiction; [subst t|destruct T as [-> _]|subst t];
      rewrite ?B1, ?B2, ?B3; lia.
  - cbn [s_srv s_ts]. rewrite zsum_app. pose proof (zsum_set b (s_ts s) i t' t N) as E.
    specialize (St s i ch t g' t' sp (conj R (conj Ok (conj N T)))).
    destruct sp; cbn [opt_list zsum osum] in *; lia.
Qed.

(* a property of each thread *)
Lemma local (P : srv -> thread -> Prop) :
  (forall g lim, P g (TNew lim)) -> (forall g c, c < v_n g -> P g (TCl0 c)) -> (forall g, P g TSh0) ->
  (forall g g' t, ext g g' -> P g t -> P g' t) ->
  (forall s i ch t g' t' sp, tstep_of s i ch t g' t' sp -> P (s_srv s) t ->
     P g' t' /\ match sp with Some x => P g' x | None => True end) ->
  forall s, dreach buf ok s -> forall t, In t (s_ts s) -> P (s_srv s) t.
Proof.
  intros P1 P2 P3 Mono St s R. induction R as [|s e s' R IH Ok H]; [intros t []|].
  destruct (dstep_inv _ _ _ H) as (_ & [(t & T & ->)|(i & ch & t & g' & t' & sp & -> & N & T & ->)]).
  - cbn. intros u U. apply in_app_or in U as [U|[<-|[]]]; [auto|].
    destruct e as [lim|c| |]; try contradiction; [subst t|destruct T as [-> ?]|subst t]; auto.
  - cbn. pose proof (tstep_ext _ _ _ _ _ _ _ T) as X.
    destruct (St s i ch t g' t' sp (conj R (conj Ok (conj N T))) (IH t (nth_error_In _ _ N))) as [A B].
    intros u U. apply in_app_or in U as [U|U].
    + apply set_nth_In in U as [->|U]; [exact A|]. eapply Mono; eauto.
    + destruct sp; [destruct U as [<-|[]]; exact B|destruct U].
Qed.

(* a property of the server state *)
Lemma global (P : srv -> Prop) :
  P (s_srv (new_server buf)) ->
  (forall s i ch t g' t' sp, tstep_of s i ch t g' t' sp -> P (s_srv s) -> P g') ->
  forall s, dreach buf ok s -> P (s_srv s).
Proof.
  intros P0 St s R. induction R as [|s e s' R IH Ok H]; [exact P0|].
  destruct (dstep_inv _ _ _ H) as (_ & [(t & T & ->)|(i & ch & t & g' & t' & sp & -> & N & T & ->)]).
  - exact IH.
  - cbn. eapply St; [|exact IH]. exact (conj R (conj Ok (conj N T))).
Qed.
End Schemes.

(* counting threads as a sum *)
Definition bz (b : bool) : Z := if b then 1%Z else 0%Z.
Lemma zsum_count {A} (p : A -> bool) (l : list A) : zsum (fun t => bz (p t)) l = Z.of_nat (count p l).
Proof. induction l as [|a l IH]; cbn [zsum count]; [reflexivity|]. rewrite IH. destruct (p a); cbn [bz b2i]; lia. Qed.

(* ordering conditions on the log *)
Definition ordered (cond : list event -> event -> Prop) (l : list event) : Prop :=
  forall l1 e l2, l = l1 ++ e :: l2 -> cond l1 e.
Lemma ordered_nil cond : ordered cond [].
Proof. intros l1 e l2 H. destruct l1; discriminate. Qed.
Lemma ordered_snoc cond l e : ordered cond l -> cond l e -> ordered cond (l ++ [e]).
Proof.
  intros O C l1 x l2 H. destruct l2 as [|y l2 _] using rev_ind.
  - apply app_inj_tail in H as [-> ->]. exact C.
  - rewrite app_comm_cons, app_assoc in H. apply app_inj_tail in H as [-> _]. apply (O l1 x l2 eq_refl).
Qed.

(* ---------- the readers ---------- *)
Ltac eqbs := repeat match goal with |- context[?a =? ?b] => destruct (Nat.eqb_spec a b); subst end.

(* every thread belongs to an existing connection *)
Definition belongs (g : srv) (t : thread) : Prop :=
  match t with
  | TRd c _ | TJob c _ _ _ | TCl0 c | TClU c | TClR c => c < v_n g
  | _ => True
  end.
Lemma all_belong buf ok s : dreach buf ok s -> forall t, In t (s_ts s) -> belongs (s_srv s) t.
Proof.
  apply local; try (cbn; auto; fail).
  - intros g g' t X. destruct t; cbn; auto; pose proof (e_n _ _ X); lia.
  - intros s0 i ch t g' t' sp (_ & _ & _ & H) B. inv_tstep H; cbn in *; auto; try lia.
Qed.
Lemma belong_at buf ok s i t : dreach buf ok s -> nth_error (s_ts s) i = Some t -> belongs (s_srv s) t.
Proof. intros R N. eapply all_belong; eauto. eapply nth_error_In; eauto. Qed.

(* exactly one read loop per connection *)
Lemma one_reader buf ok s c : dreach buf ok s ->
  Z.of_nat (count (reader_of c) (s_ts s)) = bz (Nat.ltb c (v_n (s_srv s))).
Proof.
  intros R. rewrite <- zsum_count.
  cut (- bz (Nat.ltb c (v_n (s_srv s))) + zsum (fun t => bz (reader_of c t)) (s_ts s) = 0)%Z; [lia|].
  revert s R. apply (linear buf ok (fun g => - bz (Nat.ltb c (v_n g)))%Z); try reflexivity.
  intros s i ch t g' t' sp (_ & _ & _ & H). inv_tstep H; cbn; try lia.
  destruct (Nat.ltb_spec c (v_n (s_srv s))), (Nat.ltb_spec c (S (v_n (s_srv s)))), (Nat.eqb_spec (v_n (s_srv s)) c); cbn; lia.
Qed.
Lemma reader_unique buf ok s c i j si sj : dreach buf ok s ->
  nth_error (s_ts s) i = Some (TRd c si) -> nth_error (s_ts s) j = Some (TRd c sj) -> i = j /\ si = sj.
Proof.
  intros R Ni Nj. destruct (Nat.eq_dec i j) as [->|D].
  - rewrite Ni in Nj. injection Nj as ->. auto.
  - exfalso. pose proof (one_reader buf ok s c R) as O.
    assert (2 <= count (reader_of c) (s_ts s)).
    { eapply count_two; eauto; cbn; apply Nat.eqb_refl. }
    destruct (c <? v_n (s_srv s)); cbn in O; lia.
Qed.

(* ---------- facts about one thread ---------- *)
Definition from_frame (g : srv) (c k : nat) (m : message) : Prop :=
  exists b, In (LFrame c k b (Some m)) (v_log g) /\ ReadBytes (NewMessage (v_buf g)) b = Some (m, true, None).
Definition app_route (m : message) : Prop :=
  route_of (m_type m) = RtSignal \/ route_of (m_type m) = RtRequest.
Definition job_ok (m : message) (j : jstate) : Prop :=
  match j with
  | JStart | JRun => app_route m
  | JRep _ => route_of (m_type m) = RtRequest
  | JInt => route_of (m_type m) = RtRestore \/ route_of (m_type m) = RtClosure
  | _ => True
  end.
Definition sane (g : srv) (t : thread) : Prop :=
  match t with
  | TRd c (RGot k m) => from_frame g c k m /\ k < c_next (v_conn g c)
  | TRd c (RSlot k m) => from_frame g c k m /\ k < c_next (v_conn g c) /\ m_type m <> MsgHeartbeat /\
                         (1 < c_limit (v_conn g c))%Z
  | TRd c (ROps k m) | TRd c (RReg k m) | TRd c (RDisp k m) =>
      from_frame g c k m /\ k < c_next (v_conn g c) /\ m_type m <> MsgHeartbeat
  | TRd c (RFail k m) => from_frame g c k m /\ k < c_next (v_conn g c) /\ m_type m <> MsgHeartbeat /\
                         RequiresReply m = true /\ v_shutdown g = true
  | TRd c (RJob k m j) => from_frame g c k m /\ k < c_next (v_conn g c) /\ m_type m <> MsgHeartbeat /\ job_ok m j /\
      (match j with JStart | JRun | JRep _ => async (c_limit (v_conn g c)) = false | _ => True end)
  | TJob c k m j => from_frame g c k m /\ k < c_next (v_conn g c) /\ m_type m <> MsgHeartbeat /\ job_ok m j /\
      async (c_limit (v_conn g c)) = true
  | _ => True
  end.

Lemma from_frame_ext g g' c k m : ext g g' -> from_frame g c k m -> from_frame g' c k m.
Proof.
  intros X (b & I & R). exists b. destruct (e_log _ _ X) as [l E]. rewrite E, (e_buf _ _ X).
  split; [apply in_or_app; auto|exact R].
Qed.

Lemma route_skip t : route_of t = RtSkip -> t = MsgHeartbeat.
Proof.
  unfold route_of. destruct (beq t MsgHeartbeat) eqn:E; [intros _; apply beq_eq; exact E|].
  repeat (match goal with |- context[if ?x then _ else _] => destruct x end; try discriminate).
Qed.

Definition fine (g : srv) (t : thread) : Prop := sane g t /\ belongs g t.
Lemma fine_ext g g' t : ext g g' -> fine g t -> fine g' t.
Proof.
  intros X [S B]. split; [|destruct t; cbn in *; auto; pose proof (e_n _ _ X); lia].
  destruct t; cbn in *; auto.
  + pose proof (e_next _ _ X c B) as N1. pose proof (e_lim _ _ X c B) as N2. destruct s; cbn in *; auto;
    try (destruct S as [F S]; split; [eapply from_frame_ext; eauto|]; rewrite ?N2; try lia).
    * intuition lia.
    * intuition lia.
    * destruct S as (S1 & S2 & S3 & S4). repeat split; try lia; auto. apply (e_shut _ _ X S4).
    * intuition lia.
    * intuition lia.
    * intuition lia.
  + pose proof (e_next _ _ X c B) as N1. pose proof (e_lim _ _ X c B) as N2.
    destruct S as [F S]; split; [eapply from_frame_ext; eauto|]; rewrite ?N2. intuition lia.
Qed.

Lemma all_fine buf ok s : dreach buf ok s -> forall t, In t (s_ts s) -> fine (s_srv s) t.
Proof.
  apply (local buf ok fine); try (cbn; unfold fine; cbn; auto; fail).
  - apply fine_ext.
  - intros s0 i ch t g' t' sp (_ & _ & _ & H) F.
    assert (X := tstep_ext _ _ _ _ _ _ _ H). apply (fine_ext _ _ _ X) in F. destruct F as [S B]. unfold fine.
    inv_tstep H; cbn in S, B |- *; auto; try (split; [split|]; tauto || lia); try (split; [tauto|auto]).
    all: try (split; [split|exact I]; [|exact B]).
    all: try tauto.
    + split; [|unfold upd; rewrite Nat.eqb_refl; cbn; lia]. exists b. cbn. split; [apply in_or_app; right; left; reflexivity|assumption].
    + unfold app_route. tauto.
    + unfold app_route. tauto.
Qed.
Lemma fine_at buf ok s i t : dreach buf ok s -> nth_error (s_ts s) i = Some t -> fine (s_srv s) t.
Proof. intros R N. eapply all_fine; eauto. eapply nth_error_In; eauto. Qed.

(* connections that do not exist yet *)
Lemma fresh buf ok s : dreach buf ok s -> forall c, v_n (s_srv s) <= c -> v_conn (s_srv s) c = no_conn.
Proof.
  apply (global buf ok (fun g => forall c, v_n g <= c -> v_conn g c = no_conn)); [reflexivity|].
  intros s0 i ch t g' t' sp (R & _ & N & H) IH c' L.
  pose proof (belong_at _ _ _ _ _ R N) as B.
  inv_tstep H; cbn in *; auto; unfold upd; cbn;
    try (destruct (Nat.eqb_spec c' c) as [->|]; [lia|]; apply IH; lia).
  destruct (Nat.eqb_spec c' (v_n (s_srv s0))) as [->|]; [lia|]. apply IH; lia.
Qed.

Ltac bsimp := cbn [b2i bz andb negb orb c_tasks c_active c_limit c_slots c_next set_tasks set_slots set_inactive bump before_task before_ops].
Ltac bools := bsimp; repeat (match goal with
  | |- context[Nat.eqb ?a ?b] => destruct (Nat.eqb_spec a b); subst
  | |- context[bz ?b] => lazymatch b with true => fail | false => fail | _ => destruct b eqn:? end
  | |- context[b2i ?b] => lazymatch b with true => fail | false => fail | _ => destruct b eqn:? end
  end; bsimp; try congruence); try lia.

(* ---------- linear invariants ---------- *)
Definition zcount (p : event -> bool) (g : srv) : Z := Z.of_nat (count p (v_log g)).

(* handlers running on c / for message k of c *)
Definition running (c : nat) (t : thread) : bool :=
  match t with TRd c' (RJob _ _ JRun) | TJob c' _ _ JRun => c' =? c | _ => false end.
Definition running_msg (c k : nat) (t : thread) : bool :=
  match t with TRd c' (RJob k' _ JRun) | TJob c' k' _ JRun => (c' =? c) && (k' =? k) | _ => false end.
Lemma starts_ends buf ok s c : dreach buf ok s ->
  count (is_start c) (slog s) = count (is_end c) (slog s) + count (running c) (s_ts s).
Proof.
  intros R.
  cut (zcount (is_end c) (s_srv s) - zcount (is_start c) (s_srv s) + zsum (fun t => bz (running c t)) (s_ts s) = 0)%Z.
  { rewrite zsum_count. unfold zcount. lia. }
  revert s R. apply (linear buf ok (fun g => zcount (is_end c) g - zcount (is_start c) g)%Z); try reflexivity.
  intros s i ch t g' t' sp (_ & _ & _ & H). unfold zcount. inv_tstep H; cbn; rewrite ?count_snoc; cbn; bools.
Qed.
Lemma starts_ends_msg buf ok s c k : dreach buf ok s ->
  count (start_of c k) (slog s) = count (end_of c k) (slog s) + count (running_msg c k) (s_ts s).
Proof.
  intros R.
  cut (zcount (end_of c k) (s_srv s) - zcount (start_of c k) (s_srv s) + zsum (fun t => bz (running_msg c k t)) (s_ts s) = 0)%Z.
  { rewrite zsum_count. unfold zcount. lia. }
  revert s R. apply (linear buf ok (fun g => zcount (end_of c k) g - zcount (start_of c k) g)%Z); try reflexivity.
  intros s i ch t g' t' sp (_ & _ & _ & H). unfold zcount. inv_tstep H; cbn; rewrite ?count_snoc; cbn; bools.
Qed.
Lemma hooks_connected buf ok s c : dreach buf ok s ->
  count (connected c) (slog s) = count (hooked c) (s_ts s).
Proof.
  intros R.
  cut (- zcount (connected c) (s_srv s) + zsum (fun t => bz (hooked c t)) (s_ts s) = 0)%Z.
  { rewrite zsum_count. unfold zcount. lia. }
  revert s R. apply (linear buf ok (fun g => - zcount (connected c) g)%Z); try reflexivity.
  intros s i ch t g' t' sp (_ & _ & _ & H). unfold zcount. inv_tstep H; cbn; rewrite ?count_snoc; cbn; bools.
Qed.
Lemma hooks_disconnected buf ok s c : dreach buf ok s ->
  count (disconnected c) (slog s) = count (loop_ended c) (s_ts s).
Proof.
  intros R.
  cut (- zcount (disconnected c) (s_srv s) + zsum (fun t => bz (loop_ended c t)) (s_ts s) = 0)%Z.
  { rewrite zsum_count. unfold zcount. lia. }
  revert s R. apply (linear buf ok (fun g => - zcount (disconnected c) g)%Z); try reflexivity.
  intros s i ch t g' t' sp (_ & _ & _ & H). unfold zcount. inv_tstep H; cbn; rewrite ?count_snoc; cbn; bools.
Qed.
(* after a failed read *)
Definition read_failed (c : nat) (e : event) : bool :=
  match e with LFrame c' _ _ None | LReadErr c' => c' =? c | _ => false end.
Definition closing (c : nat) (t : thread) : bool :=
  match t with TRd c' RClose | TRd c' RUnlink | TRd c' RBye | TRd c' REnd => c' =? c | _ => false end.
Lemma read_failures buf ok s c : dreach buf ok s ->
  count (read_failed c) (slog s) = count (closing c) (s_ts s).
Proof.
  intros R.
  cut (- zcount (read_failed c) (s_srv s) + zsum (fun t => bz (closing c t)) (s_ts s) = 0)%Z.
  { rewrite zsum_count. unfold zcount. lia. }
  revert s R. apply (linear buf ok (fun g => - zcount (read_failed c) g)%Z); try reflexivity.
  intros s i ch t g' t' sp (_ & _ & _ & H). unfold zcount. inv_tstep H; cbn; rewrite ?count_snoc; cbn; bools.
Qed.
(* tasks of a connection *)
Lemma tasks_exact buf ok s c : dreach buf ok s ->
  c_tasks (v_conn (s_srv s) c) = Z.of_nat (count (task_of c) (s_ts s)).
Proof.
  intros R.
  cut (- c_tasks (v_conn (s_srv s) c) + zsum (fun t => bz (task_of c t)) (s_ts s) = 0)%Z.
  { rewrite zsum_count. lia. }
  revert s R. apply (linear buf ok (fun g => - c_tasks (v_conn g c))%Z); try reflexivity.
  intros s i ch t g' t' sp (R & _ & _ & H). inv_tstep H; cbn; unfold upd; bools.
  rewrite (fresh _ _ _ R) by lia. cbn. lia.
Qed.
