(* A series of messages over one in-memory socket is read by the peer as it was meant: C90. *)
From Coq Require Import Strings.String.
From Coq Require Import List Arith NArith ZArith Lia Bool.
From Verif Require Import BaseBytes ModelMessage ModelErrors SpecWire SpecMessage SpecWrite SpecReport ModelSend SpecSend SpecSeries SpecDeliver ProofDeliver.
From Verif Require ModelMemchan.
Import ListNotations.
Open Scope list_scope.
Open Scope nat_scope.

(* ================= C90 ================= *)
Theorem C90_delivered : forall broken cap verdict ls cs, Forall2 meant ls cs ->
  (forall l b, In l ls -> framed l b -> length b <= cap) ->
  forall sent w, ready cap sent w ->
  exists bs w', send_all broken true verdict ls w = (w', map (fun b => Returned (verdict b)) bs) /\
    ready cap (sent ++ bs) w' /\ w_sent w' = sent ++ bs /\ Forall2 reads_as bs cs.
Proof. exact delivered. Qed.
Print Assumptions C90_delivered.

(* and these are all the messages the peer accepts: what was sent of any other is refused *)
Theorem C90_readable : forall l b m, framed l b -> eight l -> blank m -> length b <= length (m_buf m) ->
  exists m' ok e, ReadBytes m b = Some (m', ok, e) /\ (ok = true /\ e = None <-> exists c, meant l c) /\
    forall c, meant l c -> shows (observe m') c.
Proof. exact readable. Qed.
Print Assumptions C90_readable.

(* with a socket that may be closed and opened at any point, the peer gets those sent while it was connected *)
Theorem C90_interrupted : forall broken cap verdict ls cs, reaching ls cs ->
  (forall l o t b, In (l, o, t) ls -> framed l b -> length b <= cap) ->
  forall sent w, ready cap sent w ->
  exists bs rs w', send_each broken verdict ls w = (w', rs) /\ interrupted cap verdict ls bs rs /\
    ready cap (sent ++ bs) w' /\ Forall2 reads_as bs cs.
Proof. exact reached. Qed.
Print Assumptions C90_interrupted.
(* any series of meaningful messages is covered, and what reaches the peer is determined *)
Theorem C90_covered : forall ls, Forall (fun x => exists c, meant (fst (fst x)) c) ls ->
  exists cs, reaching ls cs /\ forall cs', reaching ls cs' -> cs = cs'.
Proof. intros ls H. destruct (reaching_total ls H) as [cs R]. exists cs. split; [exact R|]. intros cs'. exact (reaching_fun _ _ _ R). Qed.
Print Assumptions C90_covered.

(* ---- concrete cases ---- *)
Definition ident8 : bytes := t$"12345678".
Definition mail : list letter := [LSignal t$"ab" Utf8 t$"xyz" true; LRequest ident8 [] Binary t$"p" true; LClose ident8 []].
Definition contents : list content :=
  [MkContent 64 no_ident t$"ab" t$"xyz" EU8 None; MkContent 127 ident8 [] t$"p" EBin None; MkContent 31 ident8 [] [] EBin None].
Example C90_meant : Forall2 meant mail contents.
Proof.
  constructor; [|constructor; [|constructor; [|constructor]]].
  - apply (M_signal t$"ab" Utf8 t$"xyz" true); try discriminate. repeat split; try discriminate; try (cbn; lia). intros _. repeat constructor; cbn; lia.
  - apply (M_request ident8 [] Binary t$"p" true); [reflexivity|]. repeat split; try discriminate; try (cbn; lia). intros _. constructor.
  - apply M_close. reflexivity.
Qed.
Example C90_fits : forall l b, In l mail -> framed l b -> length b <= 16.
Proof. intros l b [<-|[<-|[<-|[]]]] F; inversion F; vm_compute; lia. Qed.
Example C90_case : match send_all (fun _ => []) true (fun _ => None) mail (MkWire (ModelMemchan.new_buffer 16) false false [] false) with
  | (w, rs) => length (w_sent w) = 3 /\ rs = [Returned None; Returned None; Returned None] end.
Proof. vm_compute. split; reflexivity. Qed.
(* a signal in UTF-16 without a payload goes out, but nobody can have meant it *)
Example C90_unreadable : framed (LSignal t$"ab" Utf16 [] true) (n2b 65 :: n2b 2 :: t$"ab") /\ eight (LSignal t$"ab" Utf16 [] true) /\
  ~ exists c, meant (LSignal t$"ab" Utf16 [] true) c.
Proof.
  split; [|split; [exact I|]].
  - apply (F_signal t$"ab" Utf16 [] true). repeat split; try (cbn; lia). intros _. repeat constructor; cbn; lia.
  - intros [c M]. inversion M; subst. match goal with H : Utf16 = 2%Z -> _ |- _ => exact (H eq_refl eq_refl) end.
Qed.
Example C90_reaching : reaching [(LHeartbeat, true, true); (LClosed, true, false); (LHeartbeat, false, true); (LClosed, true, true)]
  [MkContent 33 no_ident [] [] EBin None; MkContent 22 no_ident [] [] EBin None].
Proof.
  constructor; [constructor|]. eapply R_missed; [constructor|reflexivity|]. eapply R_missed; [constructor|reflexivity|].
  constructor; constructor.
Qed.
