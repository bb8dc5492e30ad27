(* Data races on the bytes of the buffers of the in-memory transport: C75. The reader copies from the buffer of the
   writing socket itself (socket.go:245), without its locks; what keeps it from racing with the next Write is that
   the writer waits on readerErr (socket.go:82). [mreach]: see PropsMemchan. *)
From Coq Require Import List Arith NArith ZArith Lia Bool.
From Verif Require Import BaseBytes BaseConc ModelMessage ModelWrite ModelMemchan SpecWire SpecWrite SpecMemchan.
From Verif Require Import ProofMemchan ProofMemchan2 ProofMemchan3 ProofMemchan4 PropsCodec PropsMemchan.
Import ListNotations.
Open Scope nat_scope.

Lemma bytes_apart size s i j k : mreach size calm s -> taking s i k -> ~ putting s j k.
Proof.
  intros R (m & d & g & l & A) [B _]. destruct (flows size calm s (fun _ H => H) R) as [F _].
  destruct (F (remote k)) as [st D]. pose proof (d_r _ _ _ _ D _ _ A) as X. pose proof (d_w _ _ _ _ D _ _ B) as Y.
  cbn in X, Y. rewrite remote_remote, sock_eqb_refl in Y. rewrite sock_eqb_refl in X. destruct X as [_ X]. congruence.
Qed.
Lemma bytes_writers size ok s i j k : mreach size ok s -> putting s i k -> putting s j k -> i = j.
Proof.
  intros R [A _] [B _]. destruct (invariants _ _ _ R) as [L _]. pose proof (L_w _ _ L k) as W.
  pose proof (proj2 (W i) (ex_intro _ _ (conj A (sock_eqb_refl k)))) as X.
  pose proof (proj2 (W j) (ex_intro _ _ (conj B (sock_eqb_refl k)))) as Y. congruence.
Qed.
(* nobody writes to a buffer that is being read, if pairs are not dialed while they are in use *)
Theorem C75_bytes_partial : forall size s i j k, mreach size calm s -> taking s i k -> ~ putting s j k.
Proof. exact bytes_apart. Qed.
Print Assumptions C75_bytes_partial.
(* a message being read while the writer waits and another goroutine waits for the writer *)
Example C75_bytes_case : exists s, mreach 4 calm s /\ taking s 2 k0 /\ at_ s 1 (TWrite k0 WParked) /\ at_ s 3 (TWrite k0 WGet) /\ ~ can_step s 3.
Proof.
  reached calmly (call 0 (EvDial 0) dials ++ call 1 (EvWrite k0) (waits_for_reader [beat]) ++ call 2 (EvRead k1 msg false) [Go; Go; Go] ++ [EvWrite k0]).
  split; [do 4 eexists; reflexivity|]. split; [reflexivity|]. split; [reflexivity|]. intros (ch & s' & H). destruct ch; discriminate H.
Qed.
(* and no two writers write to one buffer at once *)
Theorem C75_bytes_writers : forall size ok s i j k, mreach size ok s -> putting s i k -> putting s j k -> i = j.
Proof. exact bytes_writers. Qed.
Print Assumptions C75_bytes_writers.
Example C75_bytes_writers_case : exists s, mreach 4 calm s /\ putting s 1 k0 /\ at_ s 2 (TWrite k0 WGet) /\ ~ can_step s 2.
Proof.
  reached calmly (call 0 (EvDial 0) dials ++ call 1 (EvWrite k0) [Go; ChWrite beat] ++ [EvWrite k0]).
  split; [split; [reflexivity|exists beat; eexists; vm_compute; reflexivity]|]. split; [reflexivity|]. intros (ch & s' & H). destruct ch; discriminate H.
Qed.
(* the unchanged code: closed and dialed again while a message is being read, the next writer writes to what is
   being read *)
Theorem C75_bytes_refuted : exists s, mreach 4 anything s /\ taking s 2 k0 /\ putting s 5 k0.
Proof.
  reached freely (call 0 (EvDial 0) dials ++ call 1 (EvWrite k0) (waits_for_reader [bs [1]%N]) ++ call 2 (EvRead k1 msg false) [Go; Go; Go] ++
    call 3 (EvClose k0) [Go; Go; ChWith 1; Go; Go; Go] ++ [EvStep 1 Go] ++ call 4 (EvDial 0) dials ++ call 5 (EvWrite k0) [Go]).
  split; [do 4 eexists; reflexivity|]. split; [reflexivity|]. exists (bs [2]%N). eexists. vm_compute. reflexivity.
Qed.
Print Assumptions C75_bytes_refuted.
