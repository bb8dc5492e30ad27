(* The dispatch theorems in the form in which they are published *)
From Coq Require Import List Arith NArith ZArith Lia Bool.
From Verif Require Import BaseBytes BaseConc ModelMessage ModelWrite ModelHandle ModelDispatch.
From Verif Require Import SpecWire SpecMessage SpecWrite SpecHandle SpecDispatch.
From Verif Require Import ProofMessage ProofWire ProofCodec ProofHandle ProofDispatch ProofDispatch2 ProofDispatch3.
Import ListNotations.
Open Scope nat_scope.
Local Arguments Nat.ltb : simpl never.
Local Arguments Nat.eqb : simpl never.
Local Arguments Nat.leb : simpl never.
Local Arguments Z.add : simpl never.
Local Arguments Z.sub : simpl never.
Local Arguments Z.modulo : simpl never.
Local Arguments Z.ltb : simpl never.
Local Arguments Z.of_nat : simpl never.
Local Arguments Z.pow : simpl never.

Lemma run_reach buf es s : drun (new_server buf) es = Some s -> dreach buf anything s.
Proof.
  assert (G : forall s0, dreach buf anything s0 -> drun s0 es = Some s -> dreach buf anything s).
  { induction es as [|e es IH]; cbn; intros s0 R H; [injection H as <-; exact R|].
    destruct (dstep s0 e) as [s1|] eqn:E; [|discriminate]. apply (IH s1); [|exact H].
    econstructor; [exact R|exact I|exact E]. }
  apply G. constructor.
Qed.

(* frames *)
Lemma frame_received buf b m : ReadBytes (NewMessage buf) b = Some (m, true, None) ->
  exists c, received m b c /\ length b <= buf.
Proof.
  intros H. destruct (ReadBytes_spec (NewMessage buf) b (NewMessage_blank buf)) as (m' & ok & e & R & S & _).
  rewrite H in R. injection R as <- <- <-. destruct (proj1 S (conj eq_refl eq_refl)) as [L [c F]].
  exists c. split.
  - exists (NewMessage buf). split; [apply NewMessage_blank|]. auto.
  - cbn in L. rewrite repeat_length in L. exact L.
Qed.
Lemma frame_refused buf b m ok e : ReadBytes (NewMessage buf) b = Some (m, ok, e) -> ok = false \/ e <> None ->
  ~ (length b <= buf /\ exists c, frame b c).
Proof.
  intros H D [L F]. destruct (ReadBytes_spec (NewMessage buf) b (NewMessage_blank buf)) as (m' & ok' & e' & R & S & _).
  rewrite H in R. injection R as <- <- <-. destruct S as [_ S]. destruct S as [-> ->].
  - split; [|exact F]. cbn. rewrite repeat_length. exact L.
  - destruct D; congruence.
Qed.
Lemma frame_read buf ok s c k b m : dreach buf ok s -> In (LFrame c k b m) (slog s) ->
  match m with
  | Some m => length b <= buf /\ exists cont, received m b cont
  | None => ~ (length b <= buf /\ exists cont, frame b cont)
  end.
Proof.
  intros R I. destruct (frames_ok _ _ _ R) as [F B]. specialize (F _ _ _ _ I). rewrite B in F. destruct m as [m|].
  - destruct (frame_received _ _ _ F) as (cont & H & L). eauto.
  - destruct F as (m & o & e & H & D). eapply frame_refused; eauto.
Qed.
Lemma frame_same buf ok s c k b m b' m' : dreach buf ok s ->
  In (LFrame c k b m) (slog s) -> In (LFrame c k b' m') (slog s) -> b = b' /\ m = m'.
Proof.
  intros R I I'. apply In_nth_error in I as [i I], I' as [j J]. destruct (Nat.eq_dec i j) as [->|D].
  - rewrite I in J. injection J as -> ->. auto.
  - exfalso. assert (2 <= count (is_frame_no c k) (slog s)).
    { eapply count_two; eauto; unfold is_frame_no; cbn; rewrite !Nat.eqb_refl; reflexivity. }
    rewrite (frame_once _ _ _ _ _ R) in H. destruct (k <? _); cbn in H; lia.
Qed.
Lemma from_frame_read buf ok s c k m : dreach buf ok s -> from_frame (s_srv s) c k m ->
  exists b cont, In (LFrame c k b (Some m)) (slog s) /\ received m b cont /\ length b <= buf.
Proof.
  intros R (b & I & _). destruct (frame_read _ _ _ _ _ _ _ R I) as [L [cont H]]. eauto 6.
Qed.
Lemma arrived_le buf ok s c k want : dreach buf ok s -> count (arrived c k want) (slog s) <= 1.
Proof.
  intros R. transitivity (count (is_frame_no c k) (slog s)).
  - apply count_le. intros [| c' k' b [m|]| | | | | | | | | | |] _; cbn; try discriminate. unfold is_frame_no, msg_is. cbn.
    intros H. apply andb_true_iff in H as [H _]. exact H.
  - rewrite (frame_once _ _ _ _ _ R). destruct (k <? _); cbn; lia.
Qed.
Lemma arrived_one buf ok s c k b m want : dreach buf ok s -> In (LFrame c k b (Some m)) (slog s) -> want m = true ->
  count (arrived c k want) (slog s) = 1.
Proof.
  intros R I W. pose proof (arrived_le _ _ _ c k want R).
  enough (1 <= count (arrived c k want) (slog s)) by lia.
  eapply In_count; [exact I|]. cbn. unfold msg_is. rewrite !Nat.eqb_refl, W. reflexivity.
Qed.

(* C29 *)
Lemma is_app_route m : is_app m = true <-> app_route m.
Proof. unfold is_app, app_route. destruct (route_of (m_type m)); intuition discriminate. Qed.
Lemma start_once buf ok s c k : dreach buf ok s -> count (start_of c k) (slog s) <= 1.
Proof.
  intros R. transitivity (count (started c k is_app) (slog s)).
  - apply count_le. intros e I. destruct e; cbn; try discriminate. intros E. unfold msg_is. rewrite E. cbn.
    apply is_app_route. apply (starts_ok _ _ _ R c0 k0). exact I.
  - pose proof (starts_settled _ _ _ c k is_app R (fun m H => proj1 (is_app_route m) H)).
    pose proof (arrived_le _ _ _ c k is_app R). lia.
Qed.
Lemma app_kind m b c : received m b c -> (app_route m <-> app_signal (k_type c) \/ app_request (k_type c)).
Proof. intros H. unfold app_route. rewrite route_app, (received_type _ _ _ H). reflexivity. Qed.
Lemma start_valid buf ok s c k m : dreach buf ok s -> In (LStart c k m) (slog s) ->
  exists b cont, In (LFrame c k b (Some m)) (slog s) /\ received m b cont /\ length b <= buf /\
    (app_signal (k_type cont) \/ app_request (k_type cont)).
Proof.
  intros R I. destruct (starts_ok _ _ _ R _ _ _ I) as [F A].
  destruct (from_frame_read _ _ _ _ _ _ R F) as (b & cont & I' & Rc & L).
  exists b, cont. repeat split; auto. apply (app_kind _ _ _ Rc). exact A.
Qed.
Lemma start_after_frame buf ok s : dreach buf ok s ->
  ordered (fun l e => match e with LStart c k m => exists b, In (LFrame c k b (Some m)) l
                                 | LEnd c k => exists m, In (LStart c k m) l | _ => True end) (slog s).
Proof.
  set (cond := fun (l : list event) e => match e with LStart c k m => exists b, In (LFrame c k b (Some m)) l
                                 | LEnd c k => exists m, In (LStart c k m) l | _ => True end).
  apply (global buf ok (fun g => ordered cond (v_log g))); [apply ordered_nil|].
  intros s0 i ch t g' t' sp (R & _ & N & H) IH. pose proof (fine_at _ _ _ _ _ R N) as [Sn _].
  assert (E : forall c k, running_msg c k t = true -> exists m, In (LStart c k m) (slog s0)).
  { intros c k Rn. pose proof (count_pos _ _ _ _ N Rn) as L.
    pose proof (starts_ends_msg _ _ _ c k R) as Q.
    destruct (count_exists (start_of c k) (slog s0)) as (n & e & E1 & E2); [lia|].
    destruct e; try discriminate E2. cbn in E2. apply andb_true_iff in E2 as [E2 E3].
    apply Nat.eqb_eq in E2, E3. subst. exists m. eapply nth_error_In; eauto. }
  inv_tstep H; cbn in Sn, E |- *; auto; apply ordered_snoc; try exact IH; cbn; auto.
  all: try (destruct Sn as [(b & I & _) _]; eauto; fail).
  all: apply E; rewrite !Nat.eqb_refl; reflexivity.
Qed.
Lemma refused_not_started buf ok s c k b m : dreach buf ok s -> In (LFrame c k b None) (slog s) -> ~ In (LStart c k m) (slog s).
Proof.
  intros R I J. destruct (starts_ok _ _ _ R _ _ _ J) as [(b' & I' & _) _].
  destruct (frame_same _ _ _ _ _ _ _ _ _ R I I'). discriminate.
Qed.
Lemma dstep_at s i t ch g' t' : v_crashed (s_srv s) = false -> nth_error (s_ts s) i = Some t ->
  tstep (s_srv s) i t ch = Some (g', t', None) ->
  dstep s (EvStep i ch) = Some (MkSys g' (set_nth (s_ts s) i t')).
Proof. intros C N T. unfold dstep. rewrite C, N, T, app_nil_r. reflexivity. Qed.
Lemma loop_ends s i c st : v_crashed (s_srv s) = false -> nth_error (s_ts s) i = Some (TRd c st) ->
  st = RClose \/ st = RUnlink \/ st = RBye ->
  exists n s', n <= 3 /\ drun s (repeat (EvStep i Go) n) = Some s' /\ In (LDisconnected c) (slog s') /\
    nth_error (s_ts s') i = Some (TRd c REnd).
Proof.
  assert (Bye : forall s, v_crashed (s_srv s) = false -> nth_error (s_ts s) i = Some (TRd c RBye) ->
    exists s', dstep s (EvStep i Go) = Some s' /\ In (LDisconnected c) (slog s') /\ nth_error (s_ts s') i = Some (TRd c REnd)).
  { clear. intros s C N. eexists. split; [eapply dstep_at; eauto; reflexivity|]. cbn. split; [apply in_or_app; right; left; reflexivity|].
    eapply set_nth_eq; eauto. }
  assert (Unl : forall s, v_crashed (s_srv s) = false -> nth_error (s_ts s) i = Some (TRd c RUnlink) ->
    exists s', dstep s (EvStep i Go) = Some s' /\ v_crashed (s_srv s') = false /\ nth_error (s_ts s') i = Some (TRd c RBye)).
  { clear. intros s C N. eexists. split; [eapply dstep_at; eauto; reflexivity|]. cbn. split; [exact C|].
    eapply set_nth_eq; eauto. }
  intros C N [->|[->| ->]].
  - assert (Cl : exists s' st', dstep s (EvStep i Go) = Some s' /\ v_crashed (s_srv s') = false /\
        nth_error (s_ts s') i = Some (TRd c st') /\ (st' = RBye \/ st' = RUnlink)).
    { destruct (c_active (v_conn (s_srv s) c)) eqn:A.
      - eexists. eexists. split; [eapply dstep_at; eauto; cbn; rewrite A; reflexivity|]. cbn. split; [exact C|].
        split; [eapply set_nth_eq; eauto|]. destruct (c_tasks (v_conn (s_srv s) c) <? 1)%Z; auto.
      - eexists. eexists. split; [eapply dstep_at; eauto; cbn; rewrite A; reflexivity|]. cbn. split; [exact C|].
        split; [eapply set_nth_eq; eauto|]. auto. }
    destruct Cl as (s1 & st1 & E1 & C1 & N1 & [-> | ->]).
    + destruct (Bye s1 C1 N1) as (s2 & E2 & I2 & N2). exists 2, s2. cbn. rewrite E1, E2. auto.
    + destruct (Unl s1 C1 N1) as (s2 & E2 & C2 & N2). destruct (Bye s2 C2 N2) as (s3 & E3 & I3 & N3).
      exists 3, s3. cbn. rewrite E1, E2, E3. auto.
  - destruct (Unl s C N) as (s2 & E2 & C2 & N2). destruct (Bye s2 C2 N2) as (s3 & E3 & I3 & N3).
    exists 2, s3. cbn. rewrite E2, E3. auto.
  - destruct (Bye s C N) as (s2 & E2 & I2 & N2). exists 1, s2. cbn. rewrite E2. auto.
Qed.

(* C38 *)
Lemma request_accounted buf ok s c k b m cont : dreach buf ok s -> In (LFrame c k b (Some m)) (slog s) ->
  received m b cont -> wants_reply (k_type cont) ->
  count (working_on c k RequiresReply) (s_ts s) + count (replied c k RequiresReply) (slog s) +
  count (shut_replied c k RequiresReply) (slog s) + count (sess_replied c k RequiresReply) (slog s) +
  count (dropped c k RequiresReply) (slog s) = 1.
Proof.
  intros R I Rc W. rewrite <- (requests_settled _ _ _ c k RequiresReply R (fun m H => H)).
  apply (arrived_one _ _ _ _ _ _ _ _ R I). apply RequiresReply_type. rewrite (received_type _ _ _ Rc). exact W.
Qed.
Lemma reply_frame buf ok s c k m r st : dreach buf ok s -> In (LReply c k m r st) (slog s) ->
  exists b cont, In (LFrame c k b (Some m)) (slog s) /\ received m b cont /\ app_request (k_type cont) /\
    (sendable r -> st = NoWriter \/
       exists f, st = Used (MkSink f 1) None /\ reads_as f (reply_content (k_ident cont) r)).
Proof.
  intros R I. destruct (replies_ok _ _ _ R) as (P & _). destruct (P _ _ _ _ _ I) as (F & Rt & okw & H).
  destruct (from_frame_read _ _ _ _ _ _ R F) as (b & cont & I' & Rc & L).
  exists b, cont. pose proof (proj1 (proj1 (proj2 (proj2 (routing _ _ _ Rc)))) Rt) as A. split; [exact I'|split; [exact Rc|split; [exact A|]]].
  intros Sd. destruct (handle_request_sends m b cont r Rc A Sd) as [(f & _ & Rd & Hf) Hn].
  destruct okw; cbn in H; [rewrite Hf in H|rewrite Hn in H]; injection H as <-; eauto.
Qed.
Lemma shut_reply_frame buf ok s c k m st : dreach buf ok s -> In (LShutReply c k m st) (slog s) ->
  exists b cont f, In (LFrame c k b (Some m)) (slog s) /\ received m b cont /\ wants_reply (k_type cont) /\
    st = Used (MkSink f 1) None /\ reads_as f (special_content 1 (k_ident cont)).
Proof.
  intros R I. destruct (replies_ok _ _ _ R) as (_ & P & _). destruct (P _ _ _ _ I) as (F & Rr & _ & okw & H).
  destruct (from_frame_read _ _ _ _ _ _ R F) as (b & cont & I' & Rc & L).
  assert (W : wants_reply (k_type cont)) by (rewrite <- (received_type _ _ _ Rc); apply RequiresReply_type; exact Rr).
  destruct (failMsgShutdown_sends m b cont Rc W) as (f & _ & Rd & Hf).
  exists b, cont, f. split; [exact I'|split; [exact Rc|split; [exact W|split; [|exact Rd]]]]. destruct okw; cbn [writer_of] in H; [rewrite Hf in H; injection H as <-; reflexivity|discriminate H].
Qed.
Lemma dropped_closed buf ok s c k m : dreach buf ok s -> In (LDropped c k m) (slog s) ->
  c_active (v_conn (s_srv s) c) = false.
Proof. intros R I. destruct (replies_ok _ _ _ R) as (_ & _ & _ & P). apply (P _ _ _ I). Qed.

(* C26 *)
Lemma refused_in_shutdown buf ok s c k b m cont : dreach buf ok s -> In (LFrame c k b (Some m)) (slog s) ->
  received m b cont -> wants_reply (k_type cont) -> after_shutdown c k (slog s) ->
  (forall m', ~ In (LStart c k m') (slog s)) /\ (forall m' r st, ~ In (LReply c k m' r st) (slog s)) /\
  (forall m', ~ In (LSession c k m') (slog s)) /\
  count (working_on c k RequiresReply) (s_ts s) + count (shut_replied c k RequiresReply) (slog s) +
  count (dropped c k RequiresReply) (slog s) = 1.
Proof.
  intros R I Rc W A. destruct (always_in_time _ _ _ R) as [_ T].
  assert (Wm : RequiresReply m = true) by (apply RequiresReply_type; rewrite (received_type _ _ _ Rc); exact W).
  assert (G : forall e m', In e (slog s) -> handled_event e = Some (c, k, m') -> False).
  { intros e m' Ie E. destruct (handled_frame _ _ _ _ _ _ _ R Ie E) as (b' & I' & _).
    destruct (frame_same _ _ _ _ _ _ _ _ _ R I I') as [_ Em]. injection Em as <-. exact (T e c k m Ie E Wm A). }
  split; [|split; [|split]].
  - intros m' Ie. exact (G _ m' Ie eq_refl).
  - intros m' r st Ie. exact (G _ m' Ie eq_refl).
  - intros m' Ie. exact (G _ m' Ie eq_refl).
  - rewrite <- (request_accounted _ _ _ _ _ _ _ _ R I Rc W).
    assert (Z1 : count (replied c k RequiresReply) (slog s) = 0).
    { apply count_zero. intros e Ie. destruct e; cbn; auto. destruct (msg_is c k RequiresReply c0 k0 m0) eqn:E; [|reflexivity].
      exfalso. unfold msg_is in E. apply andb_true_iff in E as [E _]. apply andb_true_iff in E as [E1 E2].
      apply Nat.eqb_eq in E1, E2. subst. exact (G _ m0 Ie eq_refl). }
    assert (Z2 : count (sess_replied c k RequiresReply) (slog s) = 0).
    { apply count_zero. intros e Ie. destruct e; cbn; auto. destruct (msg_is c k RequiresReply c0 k0 m0) eqn:E; [|reflexivity].
      exfalso. unfold msg_is in E. apply andb_true_iff in E as [E _]. apply andb_true_iff in E as [E1 E2].
      apply Nat.eqb_eq in E1, E2. subst. exact (G _ m0 Ie eq_refl). }
    lia.
Qed.

(* C25 *)
Lemma shutdown_waits_for buf s l1 i l2 : dreach buf calm s -> slog s = l1 ++ LShutReturn i :: l2 ->
  (forall c k m, In (LStart c k m) l1 -> In (LEnd c k) l1) /\ (forall c k m, ~ In (LStart c k m) l2).
Proof.
  intros R E. pose proof (shutdown_order _ _ R) as O. split.
  - intros c k m I. pose proof (O _ _ _ E c k) as Q.
    pose proof (In_count (start_of c k) _ _ I) as L. cbn in L. rewrite !Nat.eqb_refl in L. specialize (L eq_refl).
    destruct (count_exists (end_of c k) l1) as (n & e & E1 & E2); [lia|].
    destruct e; try discriminate E2. cbn in E2. apply andb_true_iff in E2 as [E2 E3]. apply Nat.eqb_eq in E2, E3. subst.
    eapply nth_error_In; eauto.
  - intros c k m I. apply in_split in I as (l3 & l4 & ->). rewrite app_comm_cons, app_assoc in E.
    apply (O _ _ _ E i). apply in_or_app. right. left. reflexivity.
Qed.
Lemma shutdown_released buf s i : dreach buf calm s -> nth_error (s_ts s) i = Some TShW ->
  (forall t, In t (s_ts s) -> registered t = false) -> v_crashed (s_srv s) = false ->
  exists s', drun s [EvStep i Go; EvStep i Go] = Some s' /\ In (LShutReturn i) (slog s').
Proof.
  intros R N NR C. destruct (shutdown_waits _ _ R (nth_error_In _ _ N)) as [_ [Q|Q]].
  2: { rewrite (proj2 (count_zero registered (s_ts s)) NR) in Q. lia. }
  eexists. cbn [drun]. erewrite dstep_at; [|exact C|exact N|cbn; rewrite Q; reflexivity].
  erewrite dstep_at; [|exact C|eapply set_nth_eq; eauto|reflexivity].
  split; [reflexivity|]. cbn. apply in_or_app. right. left. reflexivity.
Qed.
Lemma no_double_close buf s i t : dreach buf calm s -> few s -> nth_error (s_ts s) i = Some t -> registered t = true ->
  v_rdy (s_srv s) = false.
Proof.
  intros R _ N T. destruct (v_rdy (s_srv s)) eqn:E; [|reflexivity].
  destruct (shutdown_drained _ _ R (or_introl E)) as [_ D]. pose proof (registered_at _ _ _ N T). lia.
Qed.

(* C27 *)
Definition running_any (t : thread) : bool :=
  match t with TRd _ (RJob _ _ JRun) | TJob _ _ _ JRun => true | _ => false end.
Lemma counter_exact buf ok s : dreach buf ok s -> v_shutdown (s_srv s) = false -> few s ->
  v_ops (s_srv s) = nreg s.
Proof. intros R Sh F. apply (ops_few _ _ _ R F). auto. Qed.
Lemma all_starts_ends buf ok s : dreach buf ok s ->
  count any_start (slog s) = count any_end (slog s) + count running_any (s_ts s).
Proof.
  intros R.
  cut (zcount any_end (s_srv s) - zcount any_start (s_srv s) + zsum (fun t => bz (running_any t)) (s_ts s) = 0)%Z.
  { rewrite zsum_count. unfold zcount. lia. }
  revert s R. apply (linear buf ok (fun g => zcount any_end g - zcount any_start g)%Z); try reflexivity.
  intros s i ch t g' t' sp (_ & _ & _ & H). unfold zcount. inv_tstep H; cbn; rewrite ?count_snoc; cbn; bools.
Qed.
Lemma counter_covers buf ok s : dreach buf ok s -> v_shutdown (s_srv s) = false -> few s ->
  (Z.of_nat (count any_start (slog s)) - Z.of_nat (count any_end (slog s)) <= v_ops (s_srv s))%Z.
Proof.
  intros R Sh F. rewrite (counter_exact _ _ _ R Sh F), (all_starts_ends _ _ _ R).
  enough (count running_any (s_ts s) <= count registered (s_ts s)) by lia.
  apply count_le. intros [] _; cbn; try discriminate; [destruct s0 as [| | | | | | | | |k' m []| | | |]|destruct j]; try discriminate; auto.
Qed.
Lemma counter_no_underrun buf ok s i ch t g' t' sp : tstep_of buf ok s i ch t g' t' sp ->
  v_shutdown (s_srv s) = false -> few s -> v_ops g' <> v_ops (s_srv s) -> (Z.abs (v_ops g' - v_ops (s_srv s)) = 1 \/ v_ops (s_srv s) = 2 ^ 32 - 1)%Z.
Proof.
  intros (R & Ok & N & H) Sh F D. pose proof (counter_exact _ _ _ R Sh F) as E. unfold few in F.
  assert (P : registered t = true -> (1 <= v_ops (s_srv s))%Z).
  { intros Q. rewrite E. eapply registered_at; eauto. }
  inv_tstep H; cbn in D, P |- *; try congruence; try specialize (P eq_refl).
  - destruct (Z.eq_dec (v_ops (s_srv s)) (2 ^ 32 - 1)) as [->|Ne]; [auto|]. left. rewrite Z.mod_small; lia.
  - left. rewrite Z.mod_small; lia.
  - left. rewrite Z.mod_small; lia.
Qed.

(* runs that respect a policy, for the examples *)
Fixpoint crun (chk : sys -> ev -> bool) (s : sys) (es : list ev) : option sys :=
  match es with
  | [] => Some s
  | e :: es' => if chk s e then match dstep s e with Some s' => crun chk s' es' | None => None end else None
  end.
Lemma crun_reach buf (ok : sys -> ev -> Prop) chk es s : (forall s e, chk s e = true -> ok s e) ->
  crun chk (new_server buf) es = Some s -> dreach buf ok s.
Proof.
  intros Snd. assert (G : forall s0, dreach buf ok s0 -> crun chk s0 es = Some s -> dreach buf ok s).
  { induction es as [|e es IH]; cbn; intros s0 R H; [injection H as <-; exact R|].
    destruct (chk s0 e) eqn:C; [|discriminate].
    destruct (dstep s0 e) as [s1|] eqn:E; [|discriminate]. apply (IH s1); [|exact H].
    econstructor; [exact R|apply Snd, C|exact E]. }
  apply G. constructor.
Qed.
Definition calmb (s : sys) (e : ev) : bool :=
  (match e with
   | EvStep i Go => match nth_error (s_ts s) i with
                    | Some (TRd c (ROps k m)) => negb (v_shutdown (s_srv s)) || RequiresReply m
                    | _ => true
                    end
   | _ => true
   end) && (Z.of_nat (count registered (s_ts s)) <? 2 ^ 32)%Z.
Lemma calmb_ok s e : calmb s e = true -> calm s e.
Proof.
  unfold calmb, calm, no_late, few. intros H. apply andb_true_iff in H as [H1 H2]. apply Z.ltb_lt in H2.
  split; [|exact H2]. destruct e as [| | |i []]; auto. destruct (nth_error (s_ts s) i) as [[]|]; auto.
  destruct s0; auto. intros E. rewrite E in H1. exact H1.
Qed.
Definition openb (s : sys) (e : ev) : bool :=
  match e with
  | EvStep i Go => match nth_error (s_ts s) i with
                   | Some (TRd c (RReg k m)) => c_active (v_conn (s_srv s) c)
                   | _ => true
                   end
  | _ => true
  end.
Lemma openb_ok s e : openb s e = true -> stays_open s e.
Proof.
  unfold openb, stays_open. intros H. destruct e as [| | |i []]; auto. destruct (nth_error (s_ts s) i) as [[]|]; auto.
  destruct s0; auto.
Qed.

(* C28 *)
Lemma unlink_log buf s l1 c l2 : dreach buf stays_open s -> slog s = l1 ++ LUnlink c :: l2 ->
  (forall k m, In (LStart c k m) l1 -> In (LEnd c k) l1) /\ (forall k m, ~ In (LStart c k m) l2) /\
  ~ In (LUnlink c) l1 /\ ~ In (LUnlink c) l2.
Proof.
  intros R E. pose proof (unlink_order _ _ R) as O. destruct (O _ _ _ E) as [Q1 Q2].
  split; [|split; [|split]].
  - intros k m I. pose proof (Q2 k) as Q.
    pose proof (In_count (start_of c k) _ _ I) as L. cbn in L. rewrite !Nat.eqb_refl in L. specialize (L eq_refl).
    destruct (count_exists (end_of c k) l1) as (n & e & E1 & E2); [lia|].
    destruct e; try discriminate E2. cbn in E2. apply andb_true_iff in E2 as [E2 E3]. apply Nat.eqb_eq in E2, E3. subst.
    eapply nth_error_In; eauto.
  - intros k m I. apply in_split in I as (l3 & l4 & ->). rewrite app_comm_cons, app_assoc in E.
    apply (O _ _ _ E). apply in_or_app. right. left. reflexivity.
  - intros I. pose proof (In_count (unlinked c) _ _ I (Nat.eqb_refl c)). lia.
  - intros I. apply in_split in I as (l3 & l4 & ->). rewrite app_comm_cons, app_assoc in E.
    destruct (O _ _ _ E) as [Q _]. rewrite count_app in Q. cbn in Q. rewrite Nat.eqb_refl in Q. cbn in Q. lia.
Qed.
(* a closed connection without tasks is unlinked, or a thread is about to do it *)
Lemma unlink_happens buf s c : dreach buf stays_open s -> c < v_n (s_srv s) -> c_active (v_conn (s_srv s) c) = false ->
  (forall t, In t (s_ts s) -> task_of c t = false /\ unlinking c t = false) -> In (LUnlink c) (slog s).
Proof.
  intros R L A T. pose proof (unlink_count _ _ c R) as E.
  assert (Z1 : count (unlinking c) (s_ts s) = 0) by (apply count_zero; intros t I; apply T; exact I).
  assert (Z2 : count (task_of c) (s_ts s) = 0) by (apply count_zero; intros t I; apply T; exact I).
  unfold spent in E. rewrite (tasks_exact _ _ _ c R), Z1, Z2, A, (proj2 (Nat.ltb_lt _ _) L) in E. change (Z.of_nat 0) with 0%Z in E. cbn in E.
  destruct (count_exists (unlinked c) (slog s)) as (n & e & E1 & E2); [lia|].
  destruct e; try discriminate E2. cbn in E2. apply Nat.eqb_eq in E2. subst. eapply nth_error_In; eauto.
Qed.

(* C29 *)
Lemma hooks_paired buf ok s l1 e l2 : dreach buf ok s -> slog s = l1 ++ e :: l2 ->
  match e with
  | LConnected c => ~ In (LConnected c) l1
  | LFrame c _ _ _ => In (LConnected c) l1 /\ ~ In (LDisconnected c) l1 /\
                      (forall k b, ~ In (LFrame c k b None) l1) /\ ~ In (LReadErr c) l1
  | LStart c _ _ | LReply c _ _ _ _ | LSession c _ _ | LShutReply c _ _ _ => In (LConnected c) l1
  | LDisconnected c => In (LConnected c) l1 /\ ~ In (LDisconnected c) l1 /\
                       ((exists k b, In (LFrame c k b None) l1) \/ In (LReadErr c) l1)
  | _ => True
  end.
Proof.
  intros R E. pose proof (hook_order _ _ _ R _ _ _ E) as H.
  assert (Nf : forall c, count (read_failed c) l1 = 0 -> (forall k b, ~ In (LFrame c k b None) l1) /\ ~ In (LReadErr c) l1).
  { intros c Z. split; [intros k b I|intros I]; pose proof (In_count (read_failed c) _ _ I (Nat.eqb_refl c)); lia. }
  destruct e; cbn in H; auto.
  - intros I. pose proof (In_count (connected c) _ _ I (Nat.eqb_refl c)). lia.
  - destruct H as (H1 & H2 & H3). auto.
  - destruct H as (H1 & H2 & H3). split; [exact H1|]. split.
    + intros I. pose proof (In_count (disconnected c) _ _ I (Nat.eqb_refl c)). lia.
    + destruct (count_exists (read_failed c) l1) as (n & x & E1 & E2); [lia|].
      apply nth_error_In in E1. destruct x as [|c' k b [m|]|c'| | | | | | | | | |]; try discriminate E2; cbn in E2; apply Nat.eqb_eq in E2; subst; eauto.
Qed.
Lemma slot_wait buf ok s i c k m : dreach buf ok s -> v_crashed (s_srv s) = false -> nth_error (s_ts s) i = Some (TRd c (RSlot k m)) ->
  dstep s (EvStep i Go) = None ->
  c_limit (v_conn (s_srv s) c) = Z.of_nat (count (holds c) (s_ts s) + count (leaked c) (slog s)).
Proof.
  intros R C N B. unfold dstep in B. rewrite C, N in B. cbn in B.
  pose proof (fine_at _ _ _ _ _ R N) as [Sn _]. cbn in Sn.
  pose proof (slots_bound _ _ _ c R) as Bd.
  assert (Lm : limited (s_srv s) c = true) by (unfold limited; apply Z.ltb_lt; tauto).
  rewrite <- (slots_exact _ _ _ _ R Lm).
  destruct (Z.ltb_spec (c_slots (v_conn (s_srv s) c)) (c_limit (v_conn (s_srv s) c))); [discriminate|lia].
Qed.
Lemma none_lost buf ok s c k : dreach buf ok s ->
  count (arrived c k is_app) (slog s) =
    count (before_start c k is_app) (s_ts s) + count (started c k is_app) (slog s) +
    count (shut_replied c k is_app) (slog s) + count (dropped c k is_app) (slog s) /\
  count (arrived c k is_app) (slog s) <= 1.
Proof.
  intros R. split; [|exact (arrived_le _ _ _ _ _ _ R)].
  exact (starts_settled _ _ _ c k is_app R (fun m H => proj1 (is_app_route m) H)).
Qed.
Lemma slots_taken buf ok s c : dreach buf ok s -> (1 < c_limit (v_conn (s_srv s) c))%Z ->
  c_slots (v_conn (s_srv s) c) = Z.of_nat (count (holds c) (s_ts s) + count (leaked c) (slog s)).
Proof. intros R L. apply (slots_exact _ _ _ _ R). apply Z.ltb_lt, L. Qed.
Lemma counter_sound buf ok s : dreach buf ok s -> v_shutdown (s_srv s) = false -> few s ->
  v_ops (s_srv s) = Z.of_nat (count registered (s_ts s)) /\
  (Z.of_nat (count any_start (slog s)) - Z.of_nat (count any_end (slog s)) <= v_ops (s_srv s))%Z.
Proof. intros R Sh F. split; [exact (counter_exact _ _ _ R Sh F)|exact (counter_covers _ _ _ R Sh F)]. Qed.
Lemma counter_mod buf ok s : dreach buf ok s -> v_shutdown (s_srv s) = false ->
  v_ops (s_srv s) = (Z.of_nat (count registered (s_ts s)) mod 2 ^ 32)%Z.
Proof. intros R Sh. apply (ops_exact _ _ _ R). auto. Qed.
Lemma no_underrun buf ok s i ch t g' t' sp : dreach buf ok s ->
  nth_error (s_ts s) i = Some t -> ok s (EvStep i ch) -> tstep (s_srv s) i t ch = Some (g', t', sp) ->
  v_shutdown (s_srv s) = false -> few s -> (v_ops (s_srv s) < 2 ^ 32 - 1)%Z ->
  (0 <= v_ops g' /\ Z.abs (v_ops g' - v_ops (s_srv s)) <= 1)%Z.
Proof.
  intros R N Ok H Sh F L. pose proof (counter_exact _ _ _ R Sh F) as E.
  destruct (Z.eq_dec (v_ops g') (v_ops (s_srv s))) as [->|D]; [lia|].
  pose proof (counter_no_underrun _ _ _ _ _ _ _ _ _ (conj R (conj Ok (conj N H))) Sh F D) as [A|A]; [|lia].
  split; [|lia].
  destruct (ops_exact _ _ _ R (or_introl Sh)). 
  inv_tstep H; cbn in *; try lia; apply Z.mod_pos_bound; lia.
Qed.
Lemma unlink_decided buf ok s i ch t g' t' sp c : dreach buf ok s -> ok s (EvStep i ch) ->
  nth_error (s_ts s) i = Some t -> tstep (s_srv s) i t ch = Some (g', t', sp) ->
  unlinking c t' = true -> c_active (v_conn g' c) = false /\ c_tasks (v_conn g' c) = 0%Z.
Proof. intros R Ok N H. apply (unlink_decision _ _ _ _ _ _ _ _ _ _ (conj R (conj Ok (conj N H)))). Qed.
Lemma second_close buf ok s i c g' t' sp : dreach buf ok s -> nth_error (s_ts s) i = Some (TCl0 c) ->
  c_active (v_conn (s_srv s) c) = false -> tstep (s_srv s) i (TCl0 c) Go = Some (g', t', sp) ->
  g' = s_srv s /\ t' = TClR c /\ sp = None.
Proof. intros _ _ A H. cbn in H. rewrite A in H. injection H as <- <- <-. auto. Qed.
Lemma failed_read_ends buf ok s c k b : dreach buf ok s ->
  In (LFrame c k b None) (slog s) \/ In (LReadErr c) (slog s) ->
  exists i st, nth_error (s_ts s) i = Some (TRd c st) /\ (st = RClose \/ st = RUnlink \/ st = RBye \/ st = REnd) /\
    (st = REnd -> In (LDisconnected c) (slog s)).
Proof.
  intros R I. assert (L : 1 <= count (read_failed c) (slog s)).
  { destruct I as [I|I]; eapply In_count; try exact I; cbn; apply Nat.eqb_refl. }
  rewrite (read_failures _ _ _ c R) in L. destruct (count_exists _ _ L) as (i & t & N & C).
  destruct t; try discriminate C. exists i, s0. destruct s0; try discriminate C; cbn in C; apply Nat.eqb_eq in C; subst;
    (split; [exact N|split; [auto|intros E; try discriminate E]]).
  pose proof (count_pos (loop_ended c) _ _ _ N (Nat.eqb_refl c)) as Q. rewrite <- (hooks_disconnected _ _ _ c R) in Q.
  destruct (count_exists _ _ Q) as (n & e & E1 & E2). destruct e; try discriminate E2. cbn in E2. apply Nat.eqb_eq in E2. subst.
  eapply nth_error_In; eauto.
Qed.
Lemma handled_valid buf ok s l1 c k m l2 : dreach buf ok s -> slog s = l1 ++ LStart c k m :: l2 ->
  exists b cont, In (LFrame c k b (Some m)) l1 /\ received m b cont /\ length b <= buf /\
    (app_signal (k_type cont) \/ app_request (k_type cont)).
Proof.
  intros R E. destruct (start_after_frame _ _ _ R _ _ _ E) as [b I].
  assert (J : In (LStart c k m) (slog s)) by (rewrite E; apply in_or_app; right; left; reflexivity).
  destruct (start_valid _ _ _ _ _ _ R J) as (b' & cont & I' & Rc & L & A).
  exists b', cont. split; [|auto].
  assert (I2 : In (LFrame c k b (Some m)) (slog s)) by (rewrite E; apply in_or_app; auto).
  destruct (frame_same _ _ _ _ _ _ _ _ _ R I2 I') as [-> _]. exact I.
Qed.
