(* A series of messages over the in-memory transport is read as it was meant. *)
From Coq Require Import Strings.String.
From Coq Require Import List Arith NArith ZArith Lia Bool.
From Verif Require Import BaseBytes ModelMessage ModelErrors SpecWire SpecMessage SpecWrite ModelSend SpecSend SpecSeries SpecDeliver ProofWrite ProofSeries.
From Verif Require ProofWire ProofCodec.
Import ListNotations.
Open Scope list_scope.
Open Scope nat_scope.

Lemma meant_framed l c : meant l c -> exists b, framed l b /\ frame b c.
Proof.
  destruct 1 as [name e p safe V N E|i name e p safe L V|i e p L V|i c m safe L C V|t i T L| | |info N|i key L N|i L];
    eexists; (split; [constructor; try eassumption; lia|]).
  - eapply signal_in_grammar; eassumption.
  - eapply request_in_grammar; eassumption.
  - eapply reply_in_grammar; eassumption.
  - apply error_in_grammar; assumption.
  - rewrite <- (app_nil_r i) at 1. apply SpecWire.F_special; assumption.
  - apply SpecWire.F_heartbeat.
  - apply SpecWire.F_closed.
  - apply SpecWire.F_created; assumption.
  - apply SpecWire.F_restore; assumption.
  - rewrite app_nil_r. apply SpecWire.F_close_session; assumption.
Qed.
Lemma meant_frame l c : meant l c -> exists b, framed l b /\ reads_as b c.
Proof. intros M. destruct (meant_framed _ _ M) as (b & F & G). exists b. split; [exact F|apply frame_reads, G]. Qed.
Lemma delivered broken cap verdict ls cs : Forall2 meant ls cs -> (forall l b, In l ls -> framed l b -> length b <= cap) ->
  forall sent w, ready cap sent w ->
  exists bs w', send_all broken true verdict ls w = (w', map (fun b => Returned (verdict b)) bs) /\
    ready cap (sent ++ bs) w' /\ w_sent w' = sent ++ bs /\ Forall2 reads_as bs cs.
Proof.
  intros M S sent w R.
  assert (H : exists bs, series cap verdict ls bs (map (fun b => Returned (verdict b)) bs) /\ Forall2 reads_as bs cs /\ length bs = length ls).
  { clear R sent w. induction M as [|l c ls cs Ml _ IH]; [exists []; repeat constructor|].
    destruct IH as (bs & A & B & C); [intros; apply (S l0); [right|]; assumption|].
    destruct (meant_frame _ _ Ml) as (b & F & D). exists (b :: bs). split; [|split].
    - cbn [map]. apply S_sent; [exact F|exact (S l b (or_introl eq_refl) F)|exact A].
    - constructor; assumption.
    - cbn [length]. congruence. }
  destruct H as (bs & A & B & C). destruct (series_right broken _ _ _ _ _ A _ _ R) as (w' & E & F & G & _).
  exists bs, w'. auto.
Qed.

(* what the peer does not accept *)
Lemma frame_shape h r c : frame (h :: r) c ->
  (b2N h = 63%N \/ b2N h = 64%N -> 1 < length r) /\
  (b2N h = 65%N -> exists name pad p, r = flag name :: name ++ pad ++ p /\ length name <= 255 /\ length pad = length name mod 2 /\ p <> []) /\
  (b2N h = 0%N -> exists i code m, r = i ++ flag code :: code ++ m /\ length i = 8 /\ 1 <= length code <= 255) /\
  (b2N h = 21%N -> r <> []) /\ (b2N h = 31%N -> length r = 8) /\ (b2N h = 32%N -> 8 < length r).
Proof.
  intros F. remember (h :: r) as b eqn:E.
  assert (L : forall x : bytes, x <> [] -> 1 <= length x) by (intros [|]; [congruence|cbn; lia]).
  destruct F as [e name p Ne Ln N|name pad p Ln P Ev N|e i name p Ne Li Ln N|i name pad p Li Ln P Ev N|e i p Ne Li|i pad p Li Ev|i code m Li Lc|t i rest T Li|info N| |k|i Li|i key Li N|];
    injection E as <- <-;
    try (assert (K : (t = 1 \/ t = 2 \/ t = 3 \/ t = 4 \/ t = 5)%N) by lia; destruct K as [->|[->|[->|[->| ->]]]]);
    try (destruct e; [..|congruence]); try destruct e;
    (split; [intros [K|K]; try discriminate K|split; [intros K; try discriminate K|split; [intros K; try discriminate K|split; [intros K; try discriminate K|split; intros K; try discriminate K]]]]);
    try (cbn [length]; apply L in N; lia); try congruence; try assumption.
  - do 3 eexists. split; [reflexivity|]. auto.
  - do 3 eexists. split; [reflexivity|]. auto.
  - rewrite app_length. apply L in N. lia.
Qed.
Lemma skip8 (a b : bytes) : length a = 8 -> skipn 8 (a ++ b) = b.
Proof. intros H. rewrite skipn_app, H, Nat.sub_diag, skipn_all2 by lia. reflexivity. Qed.
Lemma read_meant l b c : framed l b -> eight l -> frame b c -> meant l c.
Proof.
  intros F E G. assert (H : exists c', meant l c').
  { destruct F as [name e p safe V|i name e p safe V|i e p V|i code m safe Lc V|t i T| | |info|i p|i p]; cbn [eight] in E;
      apply frame_shape in G; destruct G as (G1 & G2 & G3 & G4 & G5 & G6).
    - eexists. constructor; [exact V| |].
      + intros N. apply app_eq_nil in N. destruct N as [-> ->]. unfold pad_of in *. destruct (enc_of e); cbn in *.
        * specialize (G1 (or_introl eq_refl)). lia.
        * specialize (G1 (or_intror eq_refl)). lia.
        * destruct (G2 eq_refl) as (n & pd & q & Q & _ & _ & Nq). apply (f_equal (@length byte)) in Q. cbn in Q. rewrite !app_length in Q. destruct q; [congruence|cbn in Q; lia].
      + intros -> ->. cbn in G2. destruct (G2 eq_refl) as (n & pd & q & Q & Ln & Lp & Nq). destruct V as [V _].
        injection Q as Q1 Q2. assert (K : length name = length n).
        { apply (f_equal b2N) in Q1. unfold flag in Q1. rewrite !b2N_n2b_small in Q1 by lia. lia. }
        apply (f_equal (@length byte)) in Q2. rewrite !app_length, repeat_length in Q2. rewrite K in Q2. destruct q; [congruence|cbn [length] in Q2; lia].
    - eexists. constructor; assumption.
    - eexists. constructor; assumption.
    - eexists. constructor; [exact E| |exact V]. destruct (G3 eq_refl) as (j & cd & q & Q & Lj & Lcd).
      apply (f_equal (skipn 8)) in Q. rewrite !skip8 in Q by assumption. injection Q as Q _. apply (f_equal b2N) in Q. unfold flag in Q. rewrite !b2N_n2b_small in Q by lia. lia.
    - eexists. constructor; assumption.
    - eexists. constructor.
    - eexists. constructor.
    - eexists. constructor. exact (G4 eq_refl).
    - eexists. constructor; [exact E|]. intros ->. specialize (G6 eq_refl). rewrite app_nil_r in G6. lia.
    - specialize (G5 eq_refl). rewrite app_length in G5. destruct p; [|cbn in G5; lia]. eexists. constructor. exact E. }
  destruct H as [c' H]. destruct (meant_framed _ _ H) as (b' & F' & G').
  assert (b' = b) as -> by (eapply framed_fun; eassumption). rewrite (ProofWire.frame_fun _ _ _ G G'). exact H.
Qed.
Lemma readable l b m : framed l b -> eight l -> blank m -> length b <= length (m_buf m) ->
  exists m' ok e, ReadBytes m b = Some (m', ok, e) /\ (ok = true /\ e = None <-> exists c, meant l c) /\
    forall c, meant l c -> shows (observe m') c.
Proof.
  intros F E B L. destruct (ProofCodec.ReadBytes_spec m b B) as (m' & ok & e & R & A & _ & _ & _ & S).
  assert (K : forall c, meant l c -> frame b c).
  { intros c M. destruct (meant_framed _ _ M) as (b' & F' & G). rewrite (framed_fun _ _ _ F F'). exact G. }
  exists m', ok, e. split; [exact R|]. split; [|intros c M; apply S; [exact L|apply K, M]].
  rewrite A. split.
  - intros [_ [c G]]. exists c. eapply read_meant; eassumption.
  - intros [c M]. split; [exact L|]. exists c. apply K, M.
Qed.
Lemma reached broken cap verdict ls cs : reaching ls cs -> (forall l o t b, In (l, o, t) ls -> framed l b -> length b <= cap) ->
  forall sent w, ready cap sent w ->
  exists bs rs w', send_each broken verdict ls w = (w', rs) /\ interrupted cap verdict ls bs rs /\
    ready cap (sent ++ bs) w' /\ Forall2 reads_as bs cs.
Proof.
  intros M S sent w R.
  assert (H : exists bs rs, interrupted cap verdict ls bs rs /\ Forall2 reads_as bs cs /\ harmless cap ls).
  { clear R sent w. induction M as [|l c ls cs Ml _ IH|l c o t ls cs Ml O _ IH]; [exists [], []; repeat constructor| |];
      (destruct IH as (bs & rs & A & B & C); [intros l0 o0 t0 b0 I; apply (S l0 o0 t0); right; exact I|]);
      destruct (meant_frame _ _ Ml) as (b & F & D).
    - pose proof (S _ _ _ _ (or_introl eq_refl) F) as L. exists (b :: bs), (Returned (verdict b) :: rs).
      split; [apply I_sent; assumption|]. split; [constructor; assumption|]. constructor; [|exact C]. intros _. exists b. auto.
    - pose proof (S _ _ _ _ (or_introl eq_refl) F) as L. destruct o; [destruct t; [discriminate O|]|]; do 2 eexists.
      + split; [eapply I_late; eassumption|]. split; [exact B|]. constructor; [|exact C]. intros _. exists b. auto.
      + split; [apply I_closed; eassumption|]. split; [exact B|]. constructor; [|exact C]. discriminate. }
  destruct H as (bs & rs & A & B & C). destruct (interrupted_right broken _ _ _ _ _ A _ _ R) as (w' & E & _ & G & _).
  exists bs, rs, w'. auto.
Qed.
Lemma reaching_total ls : Forall (fun x => exists c, meant (fst (fst x)) c) ls -> exists cs, reaching ls cs.
Proof.
  induction 1 as [|[[l o] t] ls [c M] _ [cs IH]]; [exists []; constructor|]. cbn [fst] in M.
  destruct (o && t) eqn:O; [|exists cs; eapply R_missed; eassumption].
  apply andb_prop in O. destruct O as [-> ->]. exists (c :: cs). constructor; assumption.
Qed.
Lemma reaching_fun ls cs cs' : reaching ls cs -> reaching ls cs' -> cs = cs'.
Proof.
  intros H. revert cs'. induction H as [|l c ls cs M _ IH|l c o t ls cs M O _ IH]; intros cs' G; inversion G; subst; auto; try discriminate.
  f_equal; auto. match goal with M' : meant l ?c' |- _ => destruct (meant_framed _ _ M) as (b & F & X), (meant_framed _ _ M') as (b' & F' & X') end.
  rewrite (framed_fun _ _ _ F F') in X. exact (ProofWire.frame_fun _ _ _ X X').
Qed.
