(* In-memory sockets are made in pairs; addresses; what a connection tells: C73. *)
From Coq Require Import List Arith ZArith Bool Lia.
From Verif Require Import BaseBytes BaseConc ModelMessage ModelMemchan ModelSocket SpecSocket ProofSocket ProofSocket2 ProofSocket3.
Import ListNotations.
Open Scope nat_scope.

(* whatever is called, in whatever order: the answers are those of ends of links *)
Theorem C73_links : forall l, answers l = snd (spec_run empty_world l) /\
  h_new (after l) = w_new (fst (spec_run empty_world l)).
Proof. exact links_answers. Qed.
Print Assumptions C73_links.

(* a socket and its remote end refer to each other, and are connected or not together *)
Theorem C73_ends : forall l s c, says l (CRemoteAddr s) = Addr (Some (Some c)) ->
  s <> c /\ says l (CRemoteAddr c) = Addr (Some (Some s)) /\
  says l (CIsConnected s) = says l (CIsConnected c) /\ exists b, says l (CIsConnected s) = IsIt b.
Proof. exact ends_agree. Qed.
Print Assumptions C73_ends.

(* no other call connects or disconnects a socket than Dial and Close at one of the two ends, and Shutdown *)
Theorem C73_others : forall l c j b, says l (CIsConnected j) = IsIt b -> ~ concerns l c j ->
  says (l ++ [c]) (CIsConnected j) = IsIt b.
Proof. exact others_stay. Qed.
Print Assumptions C73_others.

Theorem C73_close : forall l k, k < length (h_socks (after l)) ->
  says l (CClose k) = Nil /\ says (l ++ [CClose k]) (CIsConnected k) = IsIt false.
Proof. exact close_effect. Qed.
Print Assumptions C73_close.

Theorem C73_dial : forall l k o d, says l (CDial k o d) = Nil -> d = false /\
  says l (CIsConnected k) = IsIt false /\ says (l ++ [CDial k o d]) (CIsConnected k) = IsIt true.
Proof. exact dial_effect. Qed.
Print Assumptions C73_dial.

(* a socket made without a server: answers to every call, for ever *)
Theorem C73_offline : forall l k l', says l (CSocket None) = Made k ->
  let h := l ++ CSocket None :: l' in
  (forall o d, says h (CDial k o d) = Unreachable) /\ says h (CIsConnected k) = IsIt false /\
  (forall p, says h (CWrite k p) = Disconnected) /\ says h (CRead k) = ReadClosed /\
  says h (CClose k) = Nil /\ says h (CRemoteAddr k) = Addr (Some None).
Proof. exact offline. Qed.
Print Assumptions C73_offline.

(* the only panic: sockets of a transport that was not given a buffer size *)
Theorem C73_panics : forall l c, known l c ->
  (says l c = Panics <-> exists t, (c = CPair t \/ c = CSocket (Some t)) /\ buffer_size l t = 0).
Proof. exact panics_exactly. Qed.
Print Assumptions C73_panics.

(* addresses tell sockets apart and do not change *)
Theorem C73_address : forall l a b c, says l (CRemoteAddr a) = Addr (Some (Some c)) ->
  says l (CRemoteAddr b) = Addr (Some (Some c)) -> a = b.
Proof. exact address_injective. Qed.
Print Assumptions C73_address.
Theorem C73_address_stays : forall l l' k a, says l (CRemoteAddr k) = Addr (Some a) ->
  says (l ++ l') (CRemoteAddr k) = Addr (Some a).
Proof. exact address_stays. Qed.
Print Assumptions C73_address_stays.

(* the server is handed one socket per successful Dial, in order: the remote end of the socket that
   dialed, with the options OnBeforeCreation returned in that call *)
Theorem C73_handed : forall l, Forall2 (fun e d => entangled l (snd e) (fst d) /\
    snd (fst e) = (if has_hook l (fst (fst e)) then snd d else zero_options)) (h_new (after l)) (dials l (answers l)).
Proof. exact handed_end. Qed.
Print Assumptions C73_handed.

(* a connection made for such a socket at any later time *)
Theorem C73_connection : forall l l' s k o now, entangled l s k ->
  exists c, newConnection (after (l ++ l')) (Some s) o now = Some c /\ cn_addr c = Some (Some k) /\
    cn_options c = o /\ cn_active c = true /\ cn_creation c = now.
Proof. exact connection_of. Qed.
Print Assumptions C73_connection.
(* a connection made without a socket is closed from the start and has no address *)
Theorem C73_no_socket : forall l o now, exists c, newConnection (after l) None o now = Some c /\
  cn_options c = o /\ cn_active c = false /\ cn_creation c = now /\ cn_addr c = None.
Proof. exact connection_without. Qed.
Print Assumptions C73_no_socket.
Theorem C73_info : forall c key v, (forall m, o_info (cn_options c) = Some m -> NoDup (map fst m)) ->
  (Info c key = Some v <-> exists m, o_info (cn_options c) = Some m /\ In (key, v) m).
Proof. exact info_spec. Qed.
Print Assumptions C73_info.

(* socket.go:31-33 of the package webwire: RemoteAddr returns "nil if the client is not connected" *)
Theorem C73_address_refuted : ~ (forall l k, says l (CIsConnected k) = IsIt false -> says l (CRemoteAddr k) = Addr None).
Proof. intros H. specialize (H [CSocket None] 0 eq_refl). discriminate H. Qed.
Print Assumptions C73_address_refuted.

(* ---------- cases ---------- *)
Definition info7 : options := MkOptions (Some [(7%Z, 70); (8%Z, 80)]) false 3.
Definition refuse : options := MkOptions None true 0.
(* one transport, two clients and a socket without server *)
Definition scene : list call :=
  [CTransport true; CInitialize 0 64; CSocket (Some 0); CSocket None; CSocket (Some 0);
   CDial 1 info7 false; CDial 1 info7 false; CDial 4 refuse false; CDial 4 zero_options false; CDial 2 info7 false].
Example C73_case : answers scene =
  [Made 0; Nil; Made 1; Made 2; Made 4; Nil; Already; Refused; Nil; Unreachable] /\
  h_new (after scene) = [(0, info7, 0); (0, zero_options, 3)] /\
  says scene (CRemoteAddr 0) = Addr (Some (Some 1)) /\ says scene (CRemoteAddr 4) = Addr (Some (Some 3)) /\
  says scene (CIsConnected 0) = IsIt true /\ says scene (CIsConnected 3) = IsIt true /\ says scene (CIsConnected 2) = IsIt false /\
  says scene (CDial 0 info7 false) = NotClient.
Proof. vm_compute. repeat split. Qed.
Example C73_case_close : says (scene ++ [CClose 0]) (CIsConnected 1) = IsIt false /\
  says (scene ++ [CClose 0]) (CIsConnected 4) = IsIt true /\
  says (scene ++ [CShutdown 0 [3; 0]]) (CIsConnected 4) = IsIt false /\
  says (scene ++ [CShutdown 0 [3; 0]; CClose 4]) (CDial 4 info7 false) = Closed /\
  ~ concerns scene (CClose 0) 4.
Proof. vm_compute. repeat split. intros [H|H]; discriminate H. Qed.
Example C73_case_write : says scene (CWrite 1 (repeat x61 64)) = Wrote true /\ says scene (CWrite 1 (repeat x61 65)) = Wrote false /\
  says scene (CRead 0) = Reading.
Proof. vm_compute. repeat split. Qed.
Example C73_case_panic : known [CTransport false] (CSocket (Some 0)) /\ buffer_size [CTransport false] 0 = 0 /\
  says [CTransport false] (CSocket (Some 0)) = Panics /\
  known scene (CPair 0) /\ buffer_size scene 0 = 64 /\ says scene (CPair 0) = MadePair 5 6.
Proof. vm_compute. repeat split; try lia. Qed.
Example C73_case_connection : entangled scene 0 1 /\
  match newConnection (after scene) (Some 0) info7 5%Z with
  | Some c => cn_addr c = Some (Some 1) /\ Info c 8 = Some 80 /\ Info c 9 = None
  | None => False
  end.
Proof. vm_compute. repeat split. Qed.
