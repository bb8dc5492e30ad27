(* Errors of starting a server, of stopping it and of closing a session on the server: C85. *)
From Coq Require Import Strings.String.
From Coq Require Import List Arith NArith ZArith Lia Bool.
From Verif Require Import BaseBytes ModelMessage ModelWrite ModelErrors ModelOptions SpecWrite SpecOptions ModelReport SpecReport ModelLog SpecLog
  ModelStart SpecStart ProofStart.
From Verif Require SpecJson.
Import ListNotations.
Open Scope list_scope.
Open Scope nat_scope.

(* ================= C85 ================= *)
(* why NewServer returns no server: exactly the cases of no_start, each with its text; the servers it does return are those of C52 *)
Theorem C85_start : forall broken impl tr initialize mk o, (- 2 ^ 63 <= op_timeout o < 2 ^ 63)%Z -> (op_bufsize o < 2 ^ 32)%N ->
  (NewServer_err broken impl tr initialize mk o = None <-> impl = true /\ tr = true /\ Prepare mk o = None) /\
  (forall e, NewServer_err broken impl tr initialize mk o = Some (inr e) <-> exists t, no_start broken impl tr initialize mk o t /\ e = Foreign (Some t)) /\
  (forall r, NewServer_err broken impl tr initialize mk o = Some (inl r) <->
     NewServer impl tr (fun o => match initialize o with Some _ => false | None => true end) mk o = Some (inl r)).
Proof. exact start_errors. Qed.
Print Assumptions C85_start.
(* a configuration message is refused exactly for a read timeout that is too long or negative *)
Theorem C85_conf : forall major minor timeout n name, (- 2 ^ 63 <= timeout < 2 ^ 63)%Z ->
  (forall b, NewAcceptConf major minor timeout n name = inl b <-> NewAcceptConfMessage major minor timeout n name = Some b) /\
  (forall e, NewAcceptConf major minor timeout n name = inr e <-> exists t, no_conf timeout t /\ e = Foreign (Some t)).
Proof. exact conf_errors. Qed.
Print Assumptions C85_conf.
(* how the duration is written: every duration of a second or more has exactly one text *)
Theorem C85_duration : forall d t, (10 ^ 9 <= d < 2 ^ 63)%Z -> t = Duration_String d <-> lasts t d.
Proof. exact duration_text. Qed.
Print Assumptions C85_duration.
Theorem C85_stop : forall broken stopped, shutdownServer broken stopped =
  option_map (fun e => Foreign (Some (t$"couldn't properly shutdown HTTP server: " ++ printed broken e))) stopped.
Proof. exact stop_error. Qed.
Print Assumptions C85_stop.
(* Server.CloseSession: every connection is asked in turn and its error kept at its place, whatever the others returned;
   the general error counts the failures *)
Theorem C85_close : forall S C (close : S -> C -> option (S * option err)) s cs, (Z.of_nat (length cs) < 2 ^ 63)%Z ->
  (forall r, Server_CloseSession close s None = Some r <-> r = (s, None, None, None)) /\
  (forall s' affected errors general, Server_CloseSession close s (Some cs) = Some (s', affected, errors, general) <->
     exists es, closes close s cs es s' /\ affected = Some cs /\ errors = Some es /\ in_general es general).
Proof. exact close_session_errors. Qed.
Print Assumptions C85_close.

(* ----- cases ----- *)
Definition plain_options : options := MkOptions 0 PNil PNil PNil 0 PNil PNil 0 [] 0.
Definition unprinted (e : err) : bytes := t$"?".
Definition refused : err := Foreign (Some t$"address in use").
Example C85_case_start :
  NewServer_err unprinted false true (fun _ => None) true plain_options = Some (inr (Foreign (Some t$"missing server implementation"))) /\
  NewServer_err unprinted true true (fun _ => None) true (set_bufsize 31 plain_options)
  = Some (inr (Foreign (Some t$"message buffer size too small: 31 bytes (min: 32 bytes)"))) /\
  NewServer_err unprinted true true (fun _ => None) true (set_timeout (2 ^ 32 * 10 ^ 6) plain_options)
  = Some (inr (Foreign (Some t$"couldn't initialize server configuration-push message: read timeout (milliseconds) overflow in server conf message (1193h2m47.296s)"))) /\
  NewServer_err unprinted true true (fun _ => Some refused) true plain_options
  = Some (inr (Foreign (Some t$"couldn't initialize transport layer: address in use"))) /\
  NewServer_err unprinted true true (fun _ => None) false plain_options = None.
Proof. vm_compute. repeat split; reflexivity. Qed.
Example C85_case_started : exists r, NewServer_err unprinted true true (fun _ => None) true (set_timeout (2 ^ 32 * 10 ^ 6 - 1) plain_options) = Some (inl r).
Proof. vm_compute. eexists. reflexivity. Qed.
Example C85_case_conf :
  NewAcceptConf x02 x00 (-1500000) 0 [] = inr (Foreign (Some t$"negative read timeout (milliseconds) in server conf message (-1)")) /\
  (exists b, NewAcceptConf x02 x00 (-999999) 0 [] = inl b).
Proof. split; [vm_compute; reflexivity|]. vm_compute. eexists. reflexivity. Qed.
Example C85_case_duration :
  map Duration_String [1000000000; 59999999999; 60000000000; 3602500000000; 90000010000000]%Z = [t$"1s"; t$"59.999999999s"; t$"1m0s"; t$"1h0m2.5s"; t$"25h0m0.01s"].
Proof. vm_compute. reflexivity. Qed.
(* the second of three connections fails *)
Example C85_case_close :
  Server_CloseSession (fun l c => Some (l ++ [c], if c =? 2 then Some refused else None)) [] (Some [1; 2; 3])
  = Some ([1; 2; 3], Some [1; 2; 3], Some [None; Some refused; None], Some (Foreign (Some t$"1 errors during the closure of a session"))).
Proof. vm_compute. reflexivity. Qed.
Example C85_case_closes : closes (fun l c => Some (l ++ [c], if c =? 2 then Some refused else None)) [] [1; 2; 3] [None; Some refused; None] [1; 2; 3].
Proof. repeat econstructor. Qed.
