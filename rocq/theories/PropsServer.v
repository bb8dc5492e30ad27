(* Session keys, server options, the handshake: C49, C51, C52. *)
From Coq Require Import List Arith NArith ZArith Lia Bool.
From Verif Require Import BaseBytes BaseConc ModelMessage ModelWrite ModelKey ModelOptions ModelMemchan SpecWire SpecMessage SpecWrite SpecKey SpecOptions SpecMemchan
  ProofKey ProofKey2 ProofOptions.
Import ListNotations.
Open Scope nat_scope.

(* ================= C49 ================= *)
Theorem C49_shape : forall rand b, gives rand b ->
  exists k, generateSessionKey rand = Some k /\ length k = 64 /\ Forall url_safe k.
Proof. exact key_shape. Qed.
Print Assumptions C49_shape.
Theorem C49_injective : forall rand1 rand2 b1 b2 k, gives rand1 b1 -> gives rand2 b2 ->
  generateSessionKey rand1 = Some k -> generateSessionKey rand2 = Some k -> b1 = b2.
Proof. exact key_injective. Qed.
Print Assumptions C49_injective.
(* no key is left out: keys are as evenly distributed as the random bytes *)
Theorem C49_surjective : forall k, length k = 64 -> Forall url_safe k -> exists b, length b = 48 /\
  forall rand, gives rand b -> generateSessionKey rand = Some k.
Proof. exact key_surjective. Qed.
Print Assumptions C49_surjective.
(* exactly: the key is the number made of the random bytes, written with 64 digits in base 64 *)
Theorem C49_exact : forall rand b, gives rand b -> generateSessionKey rand = Some (map url_digit (digits64 64 (number b))).
Proof. exact key_exact. Qed.
Print Assumptions C49_exact.
(* the encoding in general: other lengths are filled up with zeros, the digits that stand for them only are replaced *)
Theorem C49_padding : forall l, EncodeToString l =
  firstn (4 * ((length l + 2) / 3) - missing l) (EncodeToString (l ++ repeat x00 (missing l))) ++ repeat padding_char (missing l).
Proof. exact encode_padded. Qed.
Print Assumptions C49_padding.
Theorem C49_session : forall I (info : I) gen now,
  (NewSession info gen now = None <-> gen = None \/ gen = Some []) /\
  forall s, NewSession info gen now = Some s -> gen = Some (s_key s) /\ s_creation s = now /\ s_lookup s = now /\ s_info s = info.
Proof. exact session_new. Qed.
Print Assumptions C49_session.
Definition ff (n : nat) : option bytes := Some (repeat xff n).
Example C49_case : gives ff (repeat xff 48) /\ generateSessionKey ff = Some (repeat x5f 64).
Proof. vm_compute. repeat split; reflexivity. Qed.
(* "webwire..." encodes to "d2Vid2lyZS4u" ("." is 0x2e) *)
Example C49_case_text : EncodeToString [x77; x65; x62; x77; x69; x72; x65; x2e; x2e] =
  [x64; x32; x56; x69; x64; x32; x6c; x79; x5a; x53; x34; x75].
Proof. reflexivity. Qed.
(* "we" encodes to "d2U=" *)
Example C49_case_padding : missing [x77; x65] = 1 /\ EncodeToString [x77; x65] = [x64; x32; x55; x3d].
Proof. split; reflexivity. Qed.

(* ================= C51 ================= *)
Theorem C51_prepare : forall mk o,
  (Prepare mk o = None <-> wants_sessions o /\ op_manager o = PNil /\ mk = false) /\
  (forall o' e, Prepare mk o = Some (o', e) ->
     filled o o' /\ (e = true <-> (1 <= op_bufsize o <= 31)%N) /\ (e = false -> in_range o')).
Proof. exact prepare_spec. Qed.
Print Assumptions C51_prepare.
Theorem C51_idempotent : forall mk mk' o o', Prepare mk o = Some (o', false) -> Prepare mk' o' = Some (o', false).
Proof. exact prepare_idempotent. Qed.
Print Assumptions C51_idempotent.
(* sessions can be on, off or not set; not set means on *)
Theorem C51_flags : OptionUnset <> Disabled /\ OptionUnset <> Enabled /\ Disabled <> Enabled /\
  (forall mk o o' e, Prepare mk o = Some (o', e) -> op_sessions o' = if (op_sessions o =? OptionUnset)%Z then Enabled else op_sessions o) /\
  (forall mk o, op_sessions o = Disabled -> exists o' e, Prepare mk o = Some (o', e) /\ op_sessions o' = Disabled /\
     op_manager o' = op_manager o /\ op_keygen o' = op_keygen o) /\
  forall impl tr init mk o r, NewServer impl tr init mk o = Some (inl r) ->
    (op_sessions o = Disabled -> v_enabled r = false) /\ (op_sessions o = OptionUnset \/ op_sessions o = Enabled -> v_enabled r = true).
Proof. exact flags. Qed.
Print Assumptions C51_flags.
Example C51_case :
  Prepare true (MkOptions 0 PNil PNil PNil 3 PNil (PGiven 1) 999999999 [x41] 0) =
    Some (MkOptions 2 PDefault PDefault PDefault 3 PDefault (PGiven 1) 60000000000 [x41] 8192, false) /\
  Prepare false (MkOptions 1 PNil PNil PNil 0 PNil PNil 1000000000 [] 32) =
    Some (MkOptions 1 PNil PNil PDefault 0 PDefault PDefault 1000000000 [] 32, false) /\
  (exists o, Prepare true (MkOptions 0 PNil PNil PNil 0 PNil PNil 0 [] 31) = Some (o, true)) /\
  Prepare false (MkOptions 0 PNil PNil PNil 0 PNil PNil 0 [] 32) = None.
Proof. repeat split; try reflexivity. eexists. reflexivity. Qed.

(* ================= C52 ================= *)
(* what a server consists of, and what its handshake message says *)
Theorem C52_server : forall impl tr init mk o r, NewServer impl tr init mk o = Some (inl r) ->
  exists o', Prepare mk o = Some (o', false) /\ impl = true /\ tr = true /\ init o' = true /\
  (op_timeout o' < 2 ^ 32 * 1000000)%Z /\ v_options r = o' /\ v_msgbuf r = op_bufsize o' /\ v_max r = op_max o' /\
  v_manager r = op_manager o' /\ v_keygen r = op_keygen o' /\ v_parser r = op_parser o' /\
  (v_enabled r = true <-> wants_sessions o) /\
  length (v_conf r) = 11 + length (op_subname o') /\
  ((op_bufsize o < 2 ^ 32)%N -> reads_as (v_conf r) (handshake o')).
Proof. exact server_spec. Qed.
Print Assumptions C52_server.
Theorem C52_no_server : forall impl tr init mk o,
  (NewServer impl tr init mk o = None <-> impl = true /\ tr = true /\ Prepare mk o = None) /\
  (forall e, NewServer impl tr init mk o = Some (inr e) <-> why_not impl tr init mk o e).
Proof. exact server_fails. Qed.
Print Assumptions C52_no_server.
Example C52_no_server_case :
  map (fun '(impl, tr, init, o) => NewServer impl tr (fun _ => init) true o)
    [(false, false, true, bare []); (true, false, true, bare []); (true, true, true, set_bufsize 31 (bare []));
     (true, true, false, set_timeout (2 ^ 32 * 1000000)%Z (bare [])); (true, true, false, bare [])] =
  map (fun e => Some (inr e)) [NoImpl; NoTransport; BadOptions; BadConf; BadTransport].
Proof. vm_compute. reflexivity. Qed.
Theorem C52_fits_partial : forall impl tr init mk o r, NewServer impl tr init mk o = Some (inl r) ->
  (length (v_conf r) <= N.to_nat (v_msgbuf r) <-> 11 + length (op_subname o) <= N.to_nat (v_msgbuf r)) /\
  (length (op_subname o) <= 21 -> length (v_conf r) <= N.to_nat (v_msgbuf r)).
Proof. exact conf_fits. Qed.
Print Assumptions C52_fits_partial.
(* sub-protocol names are not limited by NewServer *)
Theorem C52_fits_refuted : forall name, 22 <= length name -> exists r, NewServer true true (fun _ => true) true (bare name) = Some (inl r) /\
  op_subname (v_options r) = name /\ N.to_nat (v_msgbuf r) < length (v_conf r).
Proof. exact conf_too_long. Qed.
Print Assumptions C52_fits_refuted.
(* on the in-memory transport: a message that fits is flushed, one that does not never gets out, and
   no other writer can be had of that socket *)
Theorem C52_handshake_partial : forall impl tr init mk o r s i k s1 e s2, NewServer impl tr init mk o = Some (inl r) ->
  11 + length (op_subname o) <= N.to_nat (v_msgbuf r) ->
  mreach (N.to_nat (v_msgbuf r)) anything s -> at_ s i (TWrite k WOpen) -> pending i (mlog s) = [] ->
  called (fun W ops w => writeConfMessage r ops w) s i k s1 e -> mfrom anything s1 s2 ->
  at_ s1 i (TWrite k WFlush) /\ forall k' g b, In (LSend i k' g b) (mlog s2) -> k' = k /\ b = v_conf r.
Proof. exact handshake_fits. Qed.
Print Assumptions C52_handshake_partial.
Theorem C52_handshake_refuted : forall impl tr init mk o r s i k s1 e s2, NewServer impl tr init mk o = Some (inl r) ->
  N.to_nat (v_msgbuf r) < 11 + length (op_subname o) ->
  mreach (N.to_nat (v_msgbuf r)) anything s -> at_ s i (TWrite k WOpen) -> pending i (mlog s) = [] ->
  called (fun W ops w => writeConfMessage r ops w) s i k s1 e -> mfrom anything s1 s2 ->
  e <> None /\ at_ s1 i (TWrite k (WDone WrEmpty)) /\
  exists l, mlog s2 = mlog s1 ++ l /\ (forall j, ~ In (LOpen j k) l) /\ (forall j r, ~ In (LWriter j k r) l).
Proof. exact handshake_refused. Qed.
Print Assumptions C52_handshake_refuted.

Definition opened (size : nat) : option sys :=
  mrun (new_sys size) (EvDial 0 :: map (EvStep 0) [ChAccept true; Go; Go; Go; ChShutting false; Go; Go] ++ [EvWrite (0, Srv); EvStep 1 Go]).
Lemma run_reach size es : forall s s', mreach size anything s -> mrun s es = Some s' -> mreach size anything s'.
Proof.
  induction es as [|e es IH]; cbn; intros s s' R H; [injection H as <-; exact R|].
  destruct (mstep s e) as [s1|] eqn:E; [|discriminate]. apply (IH s1 s'); [|exact H]. apply (MR_step _ _ s e s1); [exact R|exact E|constructor].
Qed.
(* both kinds of handshake can be run *)
Example C52_case : exists r s s1 e, NewServer true true (fun _ => true) true (bare (repeat x41 21)) = Some (inl r) /\
  mreach (N.to_nat (v_msgbuf r)) anything s /\ at_ s 1 (TWrite (0, Srv) WOpen) /\ pending 1 (mlog s) = [] /\
  called (fun W ops w => writeConfMessage r ops w) s 1 (0, Srv) s1 e /\ length (v_conf r) = 32.
Proof.
  destruct (opened 32) as [s|] eqn:O; [|discriminate O]. pose proof O as O'. vm_compute in O'. injection O' as O'.
  eexists. exists s. do 2 eexists. split; [reflexivity|]. split; [exact (run_reach _ _ _ _ (MR_new _ _) O)|]. clear O. subst s.
  split; [reflexivity|]. split; [reflexivity|]. split; [|reflexivity].
  eexists (fun _ => false), _. split; [reflexivity|]. split; [vm_compute; reflexivity|].
  split; [|discriminate]. intros [|[|n]] p H; try discriminate; [injection H as <-; reflexivity|destruct n; discriminate].
Qed.
Example C52_refuted_case : exists r s s1 e, NewServer true true (fun _ => true) true (bare (repeat x41 22)) = Some (inl r) /\
  mreach (N.to_nat (v_msgbuf r)) anything s /\ at_ s 1 (TWrite (0, Srv) WOpen) /\ pending 1 (mlog s) = [] /\
  called (fun W ops w => writeConfMessage r ops w) s 1 (0, Srv) s1 e /\ length (v_conf r) = 33.
Proof.
  destruct (opened 32) as [s|] eqn:O; [|discriminate O]. pose proof O as O'. vm_compute in O'. injection O' as O'.
  eexists. exists s. do 2 eexists. split; [reflexivity|]. split; [exact (run_reach _ _ _ _ (MR_new _ _) O)|]. clear O. subst s.
  split; [reflexivity|]. split; [reflexivity|]. split; [|reflexivity].
  eexists (fun _ => true), _. split; [reflexivity|]. split; [vm_compute; reflexivity|].
  split; [|reflexivity]. intros [|[|n]] p H; try discriminate; [injection H as <-; reflexivity|destruct n; discriminate].
Qed.
