(* Timed reading: proofs. *)
From Coq Require Import List ZArith Bool Lia.
From Verif Require Import BaseBytes ModelTimer SpecTimer.
Import ListNotations.
Open Scope Z_scope.

(* why a tick may be in the timer's channel while no Read uses the timer / a Read with deadline d does *)
Definition stale (fixed : bool) (l : list tevent) : Prop := fixed = false /\ overdue l.

(* events that keep reading and overdue *)
Lemma overdue_cons l e : overdue l -> (forall x, e <> LRes x TTimeout) -> overdue (e :: l).
Proof.
  intros (la & s & lb & t & d & -> & R & L & N) H. exists (e :: la), s, lb, t, d. split; [reflexivity|]. split; [exact R|].
  split; [exact L|]. intros x [E|E]; [exact (H x E)|exact (N x E)].
Qed.
Lemma stale_cons fixed l e : stale fixed l -> (forall x, e <> LRes x TTimeout) -> stale fixed (e :: l).
Proof. intros [F O] H. split; [exact F|]. apply overdue_cons; assumption. Qed.

(* what the phase of the Read in progress says about the history *)
Definition entered (d : option Z) (l : list tevent) : Prop :=
  exists t0 te la lb, l = la ++ LEnter te :: lb /\ reading lb = Some (t0, d) /\ arrived lb = None /\
    Forall (fun e => ~ wakes e) la.
Definition explained (fixed : bool) (l : list tevent) (t d : Z) : Prop :=
  exists la te lb t0, l = la ++ LEnter te :: lb /\ reading lb = Some (t0, Some d) /\ te <= t /\
    Forall (fun e => ~ wakes e) la /\
    (stale fixed lb \/ d <= t) /\
    (arrived lb = None \/ stale fixed lb \/ d <= te).
Definition ends_well (fixed : bool) (l : list tevent) : Prop :=
  forall l2 t l1, l = l2 ++ LRes t TTimeout :: l1 -> exists d, explained fixed l1 t d.

Record tinv (fixed : bool) (s : tsock) : Prop := MkTinv {
  ti_in : t_in s = arrived (t_log s);
  ti_time : forall t d, reading (t_log s) = Some (t, d) -> t <= t_now s;
  ti_ends : ends_well fixed (t_log s);
  ti_park : forall d, t_ph s = PPark d -> t_closed s = false /\ t_in s = None /\ entered d (t_log s) /\
            (forall te, In (LEnter te) (t_log s) -> te <= t_now s);
  ti_enter : forall te, In (LEnter te) (t_log s) -> te <= t_now s;
  ti_tick : match t_ph s with
            | PArmed None => t_when s = None /\ (t_tick s = true -> stale fixed (t_log s)) /\
                exists t, reading (t_log s) = Some (t, None)
            | PIdle | PEnd _ | PHave None _ | PPark None => t_when s = None /\ (t_tick s = true -> stale fixed (t_log s))
            | PArm d u => t_when s = None /\ (t_tick s = true -> stale fixed (t_log s)) /\
                exists t, reading (t_log s) = Some (t, Some d) /\ u = d - t
            | PArmed (Some d) => (exists t, reading (t_log s) = Some (t, Some d)) /\
                ((forall w, t_when s = Some w -> d <= w) /\ (t_when s = None -> t_tick s = true)) /\
                (t_tick s = true -> stale fixed (t_log s) \/ d <= t_now s)
            | PPark (Some d) => t_tick s = false /\ exists w, t_when s = Some w /\ d <= w
            | PHave (Some d) _ => (exists t, reading (t_log s) = Some (t, Some d)) /\
                (forall w, t_when s = Some w -> d <= w) /\
                (t_tick s = true -> stale fixed (t_log s) \/ d <= t_now s)
            end }.

Lemma ends_cons fixed l e : ends_well fixed l -> (forall t, e = LRes t TTimeout -> exists d, explained fixed l t d) ->
  ends_well fixed (e :: l).
Proof.
  intros E H [|x l2] t l1 Q; injection Q; intros.
  - subst. apply (H t). reflexivity.
  - subst. exact (E l2 t l1 eq_refl).
Qed.
Lemma ends_cons' fixed l e : ends_well fixed l -> (forall t, e <> LRes t TTimeout) -> ends_well fixed (e :: l).
Proof. intros E H. apply ends_cons; [exact E|]. intros t Q. destruct (H t Q). Qed.

Lemma reading_skip la e lb : Forall (fun e => ~ wakes e) la -> (forall t d, e <> LStart t d) -> reading (la ++ e :: lb) = reading lb.
Proof.
  intros F N. induction F as [|x l H _ IH]; cbn.
  - destruct e; try reflexivity. destruct (N t d eq_refl).
  - destruct x; try exact IH; cbn in H; tauto.
Qed.
Lemma entered_reading d l : entered d l -> exists t, reading l = Some (t, d).
Proof. intros (t0 & te & la & lb & -> & R & _ & F). exists t0. rewrite reading_skip; [exact R|exact F|discriminate]. Qed.
Lemma entered_cons d l e : entered d l -> ~ wakes e -> entered d (e :: l).
Proof.
  intros (t0 & te & la & lb & -> & R & A & F) H. exists t0, te, (e :: la), lb. split; [reflexivity|].
  split; [exact R|]. split; [exact A|]. constructor; assumption.
Qed.

Lemma new_tinv fixed now : tinv fixed (new_tsock now).
Proof.
  constructor; cbn; try discriminate; try tauto.
  - intros l2 t l1 E. destruct l2; discriminate E.
  - split; [reflexivity|]. discriminate.
Qed.

Ltac tsimp := cbn [t_now t_when t_tick t_on t_in t_closed t_ph t_log t_say t_to t_timer t_chan t_status t_clock t_done reading arrived In] in *.

Lemma tinv_close fixed s : tinv fixed s -> tinv fixed (t_close s).
Proof.
  intros [I1 I2 I3 I4 I5 I6]. unfold t_close. destruct (t_on s) eqn:O; [|constructor; assumption].
  tsimp. destruct (t_ph s) as [|d u|d|d|d r|r] eqn:P.
  4:{ destruct (I4 d eq_refl) as (C & N & E & _). destruct (entered_reading _ _ E) as [t R].
      constructor; tsimp; try discriminate.
      - exact I1.
      - exact I2.
      - apply ends_cons'; [|discriminate]. apply ends_cons'; [exact I3|discriminate].
      - intros te [Q|[Q|Q]]; try discriminate. exact (I5 te Q).
      - destruct d as [d|].
        + destruct I6 as (T & w & W & L). split; [exists t; exact R|]. split; [intros w' W'; rewrite W in W'; injection W' as <-; exact L|].
          rewrite T. discriminate.
        + destruct I6 as [W T]. split; [exact W|]. intros Q. apply stale_cons; [|discriminate]. apply stale_cons; [|discriminate]. exact (T Q). }
  all: constructor; tsimp; rewrite ?P; try discriminate;
    [exact I1|exact I2|apply ends_cons'; [exact I3|discriminate]|intros te [Q|Q]; [discriminate|exact (I5 te Q)]|].
  all: try (destruct d as [d|]); intuition (try (apply stale_cons; [auto|discriminate])).
Qed.

Lemma tinv_step fixed s e s' : tinv fixed s -> timer_step fixed s e = Some s' -> tinv fixed s'.
Proof.
  intros Inv H. pose proof Inv as [I1 I2 I3 I4 I5 I6]. destruct e as [n| |b| | |dl| |k| |]; cbn [timer_step] in H.
  - (* time passes *)
    destruct (Z.leb_spec 0 n) as [L|]; [|discriminate]. injection H as <-.
    constructor; tsimp; auto.
    + intros t d R. specialize (I2 t d R). lia.
    + intros d P. destruct (I4 d P) as (A & B & C & D). repeat (split; [assumption|]). intros te Q. specialize (D te Q). lia.
    + intros te Q. specialize (I5 te Q). lia.
    + destruct (t_ph s) as [|d u|[d|]|[d|]|[d|] r|r]; auto.
      * destruct I6 as (R & W & T). split; [exact R|]. split; [exact W|]. intros Q. destruct (T Q); [left; assumption|right; lia].
      * destruct I6 as (R & W & T). split; [exact R|]. split; [exact W|]. intros Q. destruct (T Q); [left; assumption|right; lia].
  - (* the timer expires *)
    destruct (t_when s) as [w|] eqn:W; [|destruct (t_ph s); discriminate].
    destruct (Z.leb_spec w (t_now s)) as [L|]; [|destruct (t_ph s); discriminate].
    destruct (t_ph s) as [|d u|[d|]|[d|]|[d|] r|r] eqn:P; try (destruct I6 as [C _]; discriminate C); injection H as <-.
    + destruct I6 as (R & Wd & T). constructor; tsimp; rewrite ?P; try discriminate; auto.
      split; [exact R|]. split; [split; [discriminate|reflexivity]|]. intros _. right. destruct Wd as [Wd _]. specialize (Wd w eq_refl). lia.
    + destruct I6 as (T & w' & Ew & Ld). injection Ew as <-. destruct (I4 (Some d) eq_refl) as (C & N & E & _).
      destruct (entered_reading _ _ E) as [t R].
      constructor; tsimp; try discriminate; auto.
      * apply ends_cons; [exact I3|]. intros x Q. injection Q as <-. exists d.
        destruct E as (t0 & te & la & lb & El & Rl & Al & F). exists la, te, lb, t0. split; [exact El|]. split; [exact Rl|].
        split; [apply I5; rewrite El; apply in_elt|]. split; [exact F|]. split; [right; lia|left; exact Al].
      * intros te [Q|Q]; [discriminate|exact (I5 te Q)].
      * split; [exists t; exact R|]. split; [discriminate|]. rewrite T. discriminate.
    + destruct I6 as (R & Wd & T). constructor; tsimp; rewrite ?P; try discriminate; auto.
      split; [exact R|]. split; [discriminate|]. intros _. right. specialize (Wd w eq_refl). lia.
  - (* a message arrives *)
    destruct (t_closed s) eqn:C; [destruct (t_ph s); discriminate|].
    assert (G : t_in s = None -> (forall d, t_ph s <> PPark d) -> tinv fixed (t_say (LPut (t_now s) b) (t_chan (Some b) false s))).
    { intros N NP. constructor; tsimp; auto.
      - apply ends_cons'; [exact I3|discriminate].
      - intros d P. destruct (NP d P).
      - intros te [Q|Q]; [discriminate|exact (I5 te Q)].
      - destruct (t_ph s) as [|d u|[d|]|[d|]|[d|] r|r]; try (exfalso; eapply NP; reflexivity);
          intuition (try (apply stale_cons; [auto|discriminate])). }
    destruct (t_ph s) as [|d u|d|d|d r|r] eqn:P.
    4:{ injection H as <-. destruct (I4 d eq_refl) as (_ & N & E & _). destruct (entered_reading _ _ E) as [t R].
        constructor; tsimp; try discriminate; auto.
        - apply ends_cons'; [|discriminate]. apply ends_cons'; [exact I3|discriminate].
        - intros te [Q|[Q|Q]]; try discriminate. exact (I5 te Q).
        - destruct d as [d|].
          + destruct I6 as (T & w & W & L). split; [exists t; exact R|]. split; [intros w' W'; rewrite W in W'; injection W' as <-; exact L|].
            rewrite T. discriminate.
          + destruct I6 as [W T]. split; [exact W|]. intros Q. apply stale_cons; [|discriminate]. apply stale_cons; [|discriminate]. exact (T Q). }
    all: destruct (t_in s) eqn:N; [discriminate|]; injection H as <-; apply G; [reflexivity|discriminate].
  - (* closed *)
    destruct (t_on s) eqn:O; [|destruct (t_ph s); discriminate]. assert (Some (t_close s) = Some s') as H' by (destruct (t_ph s); exact H).
    injection H' as <-. apply tinv_close. exact Inv.
  - (* dialed *)
    destruct (t_on s) eqn:O; [destruct (t_ph s); discriminate|].
    assert (s' = t_say (LDial (t_now s)) (t_chan None false (t_status true s))) as -> by (destruct (t_ph s); injection H as <-; reflexivity).
    constructor; tsimp; auto.
    + apply ends_cons'; [exact I3|discriminate].
    + intros d P. destruct (I4 d P) as (A & B & E & D). split; [reflexivity|]. split; [reflexivity|]. split; [apply entered_cons; [exact E|cbn; tauto]|].
      intros te [Q|Q]; [discriminate|exact (D te Q)].
    + intros te [Q|Q]; [discriminate|exact (I5 te Q)].
    + destruct (t_ph s) as [|d u|[d|]|[d|]|[d|] r|r];
        intuition (try (apply stale_cons; [auto|discriminate])).
  - (* Read *)
    destruct (t_ph s) eqn:P; try discriminate. destruct (t_on s) eqn:O; injection H as <-.
    2:{ rewrite <- P in *. exact Inv. }
    destruct I6 as [W T].
    constructor; tsimp; auto.
    + intros t d E. injection E as <- <-. lia.
    + apply ends_cons'; [exact I3|discriminate].
    + intros d E. destruct dl; discriminate.
    + intros te [Q|Q]; [discriminate|exact (I5 te Q)].
    + destruct dl as [d|].
      * split; [exact W|]. split; [intros Q; apply stale_cons; [exact (T Q)|discriminate]|]. exists (t_now s). split; reflexivity.
      * split; [exact W|]. split; [intros Q; apply stale_cons; [exact (T Q)|discriminate]|]. exists (t_now s). reflexivity.
  - (* Reset *)
    destruct (t_ph s) as [|d u|d|d|d r|r] eqn:P; try discriminate. injection H as <-.
    destruct I6 as (W & T & t & R & ->).
    constructor; tsimp; auto; try discriminate.
    split; [exists t; exact R|]. split; [split; [|discriminate]|].
    + intros w E. injection E as <-. specialize (I2 _ _ R). lia.
    + destruct fixed; [discriminate|]. intros Q. left. exact (T Q).
  - (* entering the select *)
    destruct (t_ph s) as [|d u|d|d|d r|r] eqn:P; try (destruct k; discriminate).
    assert (E0 : forall r, t_in s = None \/ (exists b, r = TData b) \/ r = TTimeout -> True) by auto.
    destruct k.
    + destruct d as [d|]; [|discriminate]. destruct (t_tick s) eqn:K; [|discriminate]. injection H as <-.
      destruct I6 as ((t & R) & Wd & T).
      constructor; tsimp; auto; try discriminate.
      * apply ends_cons; [apply ends_cons'; [exact I3|discriminate]|]. intros x Q. injection Q as <-. exists d.
        exists [], (t_now s), (t_log s), t. split; [reflexivity|]. split; [exact R|]. split; [lia|]. split; [constructor|].
        destruct (T eq_refl) as [S|S]; [split; [left; exact S|right; left; exact S]|split; [right; exact S|right; right; exact S]].
      * intros te [Q|[Q|Q]]; [discriminate|injection Q as <-; lia|exact (I5 te Q)].
      * split; [exists t; exact R|]. split; [exact (proj1 Wd)|]. discriminate.
    + destruct (t_in s) as [b|] eqn:N.
      * injection H as <-. constructor; tsimp; auto; try discriminate.
        -- apply ends_cons'; [apply ends_cons'; [exact I3|discriminate]|discriminate].
        -- intros te [Q|[Q|Q]]; [discriminate|injection Q as <-; lia|exact (I5 te Q)].
        -- destruct d as [d|].
           ++ destruct I6 as (R & Wd & T). split; [exact R|]. split; [exact (proj1 Wd)|]. intros Q. destruct (T Q) as [S|S]; [left|right; exact S].
              apply stale_cons; [|discriminate]. apply stale_cons; [exact S|discriminate].
           ++ destruct I6 as (W & T & _). split; [exact W|]. intros Q. apply stale_cons; [|discriminate]. apply stale_cons; [exact (T Q)|discriminate].
      * destruct (t_closed s) eqn:C; [|discriminate]. injection H as <-. constructor; tsimp; rewrite ?N; auto; try discriminate.
        -- apply ends_cons'; [apply ends_cons'; [exact I3|discriminate]|discriminate].
        -- intros te [Q|[Q|Q]]; [discriminate|injection Q as <-; lia|exact (I5 te Q)].
        -- destruct d as [d|].
           ++ destruct I6 as (R & Wd & T). split; [exact R|]. split; [exact (proj1 Wd)|]. intros Q. destruct (T Q) as [S|S]; [left|right; exact S].
              apply stale_cons; [|discriminate]. apply stale_cons; [exact S|discriminate].
           ++ destruct I6 as (W & T & _). split; [exact W|]. intros Q. apply stale_cons; [|discriminate]. apply stale_cons; [exact (T Q)|discriminate].
    + destruct (_ || _ || _) eqn:B in H; [discriminate|]. injection H as <-.
      apply orb_false_iff in B as [B C]. apply orb_false_iff in B as [B N].
      assert (N' : t_in s = None) by (destruct (t_in s); [discriminate|reflexivity]).
      assert (I5' : forall te, In (LEnter te) (LEnter (t_now s) :: t_log s) -> te <= t_now s)
        by (intros te [Q|Q]; [injection Q as <-; lia|exact (I5 te Q)]).
      constructor; tsimp; auto.
      * apply ends_cons'; [exact I3|discriminate].
      * intros d' Q. injection Q as <-. split; [exact C|]. split; [exact N'|]. split; [|exact I5'].
        destruct d as [d|].
        -- destruct I6 as ((t & R) & _). exists t, (t_now s), [], (t_log s). split; [reflexivity|]. split; [exact R|]. split; [congruence|constructor].
        -- destruct I6 as (_ & _ & t & R). exists t, (t_now s), [], (t_log s). split; [reflexivity|]. split; [exact R|]. split; [congruence|constructor].
      * destruct d as [d|].
        -- destruct I6 as (R & (Wd & Wn) & T). split; [exact B|]. destruct (t_when s) as [w|]; [exists w; split; [reflexivity|apply Wd; reflexivity]|].
           rewrite (Wn eq_refl) in B. discriminate.
        -- destruct I6 as (W & T & _). split; [exact W|]. intros Q. apply stale_cons; [exact (T Q)|discriminate].
  - (* Stop *)
    destruct (t_ph s) as [|d u|d|d|[d|] r|r] eqn:P; try discriminate; injection H as <-.
    + destruct I6 as ((t & R) & Wd & T). constructor; tsimp; auto; try discriminate.
      * apply ends_cons'; [exact I3|discriminate].
      * intros te [Q|Q]; [discriminate|exact (I5 te Q)].
      * split; [reflexivity|]. destruct fixed; [discriminate|]. intros Q. destruct (T Q) as [S|S].
        -- apply stale_cons; [exact S|discriminate].
        -- split; [reflexivity|]. exists [], (t_now s), (t_log s), t, d. repeat (split; [first [reflexivity|assumption]|]). intros x [].
    + constructor; tsimp; auto; discriminate.
  - (* return *)
    destruct (t_ph s) as [|d u|d|d|d r|r] eqn:P; try discriminate. injection H as <-.
    assert (G : tinv fixed (t_to PIdle (t_say (LRet (t_now s) r) s))).
    { constructor; tsimp; auto; try discriminate.
      - apply ends_cons'; [exact I3|discriminate].
      - intros te [Q|Q]; [discriminate|exact (I5 te Q)].
      - destruct I6 as [W T]. split; [exact W|]. intros Q. apply stale_cons; [exact (T Q)|discriminate]. }
    destruct r; [exact G|apply tinv_close; exact G|apply tinv_close; exact G].
Qed.

Lemma treach_inv fixed s : treach fixed s -> tinv fixed s.
Proof. induction 1 as [now|s e s' _ IH H]; [apply new_tinv|exact (tinv_step fixed s e s' IH H)]. Qed.

Theorem timeouts fixed s l2 t l1 : treach fixed s -> t_log s = l2 ++ LRes t TTimeout :: l1 ->
  exists la te lb t0 d, l1 = la ++ LEnter te :: lb /\ reading lb = Some (t0, Some d) /\ te <= t /\
    Forall (fun e => ~ wakes e) la /\
    (d <= t \/ fixed = false /\ overdue lb) /\
    (arrived lb = None \/ d <= te \/ fixed = false /\ overdue lb).
Proof.
  intros R E. destruct (ti_ends _ _ (treach_inv _ _ R) l2 t l1 E) as (d & la & te & lb & t0 & E1 & Rd & L & F & A & B).
  exists la, te, lb, t0, d. unfold stale in *. intuition.
Qed.

(* ---------- a Read with a deadline ends ---------- *)
Lemma reading_close s : reading (t_log (t_close s)) = reading (t_log s).
Proof. unfold t_close. destruct (t_on s); [|reflexivity]. cbn. destruct (t_ph s); reflexivity. Qed.
Lemma ph_close s : t_ph (t_close s) = match t_ph s with PPark d => if t_on s then PHave d TClosed else PPark d | p => p end.
Proof. unfold t_close. destruct (t_on s) eqn:O; cbn; destruct (t_ph s) eqn:P; cbn; rewrite ?P; reflexivity. Qed.
Lemma when_close s : t_when (t_close s) = t_when s.
Proof. unfold t_close. destruct (t_on s); [|reflexivity]. cbn. destruct (t_ph s); reflexivity. Qed.
Lemma now_close s : t_now (t_close s) = t_now s.
Proof. unfold t_close. destruct (t_on s); [|reflexivity]. cbn. destruct (t_ph s); reflexivity. Qed.

Lemma limit_reading fixed s d : tinv fixed s -> limit (t_ph s) = Some d -> exists t, reading (t_log s) = Some (t, Some d).
Proof.
  intros [_ _ _ I4 _ I6] L. destruct (t_ph s) as [|d' u|d'|d'|d' r|r] eqn:P; cbn in L; try discriminate.
  - injection L as ->. destruct I6 as (_ & _ & t & R & _). exists t. exact R.
  - subst. exact (proj1 I6).
  - subst. destruct (I4 (Some d) eq_refl) as (_ & _ & E & _). exact (entered_reading _ _ E).
  - subst. exact (proj1 I6).
Qed.
Definition soon (s : tsock) : Prop :=
  forall w t d, t_when s = Some w -> reading (t_log s) = Some (t, Some d) -> w - t_now s <= d - t.
Lemma soon_step fixed s e s' : tinv fixed s -> soon s -> timer_step fixed s e = Some s' -> soon s'.
Proof.
  intros Inv So H. destruct e as [n| |b| | |dl| |k| |]; cbn [timer_step] in H.
  - destruct (Z.leb_spec 0 n); [|discriminate]. injection H as <-. intros w t d W R. tsimp. specialize (So w t d W R). lia.
  - destruct (t_when s) as [w0|] eqn:W0; [|destruct (t_ph s); discriminate].
    destruct (w0 <=? t_now s); [|destruct (t_ph s); discriminate].
    intros w t d W R. destruct (t_ph s) as [| | |[?|]| |]; injection H as <-; discriminate W.
  - destruct (t_closed s); [destruct (t_ph s); discriminate|]. intros w t d W R.
    destruct (t_ph s); try (destruct (t_in s); [discriminate|]); injection H as <-; tsimp; exact (So w t d W R).
  - destruct (t_on s); [|destruct (t_ph s); discriminate]. assert (t_close s = s') as <- by (destruct (t_ph s); injection H as <-; reflexivity).
    intros w t d W R. rewrite now_close. rewrite when_close in W. rewrite reading_close in R. exact (So w t d W R).
  - destruct (t_on s); [destruct (t_ph s); discriminate|]. intros w t d W R.
    destruct (t_ph s); injection H as <-; tsimp; exact (So w t d W R).
  - destruct (t_ph s) eqn:P; try discriminate. destruct Inv as [_ _ _ _ _ I6]. rewrite P in I6. destruct I6 as [W0 _].
    intros w t d W R. destruct (t_on s); injection H as <-; tsimp; rewrite W0 in W; discriminate W.
  - destruct (t_ph s) as [|d0 u| | | |] eqn:P; try discriminate. destruct Inv as [_ _ _ _ _ I6]. rewrite P in I6.
    destruct I6 as (_ & _ & t0 & R0 & ->). injection H as <-. intros w t d W R. tsimp. injection W as <-. rewrite R0 in R. injection R as <- <-. lia.
  - intros w t d W R. destruct (t_ph s) as [| |d0| | |] eqn:P; destruct k; try discriminate.
    + destruct d0 as [d0|]; [|discriminate]. destruct (t_tick s); [|discriminate]. injection H as <-. tsimp. exact (So w t d W R).
    + destruct (t_in s); [|destruct (t_closed s); [|discriminate]]; injection H as <-; tsimp; exact (So w t d W R).
    + destruct (_ || _ || _) in H; [discriminate|]. injection H as <-. tsimp. exact (So w t d W R).
  - intros w t d W R. destruct (t_ph s) as [| | | |[d0|] r|] eqn:P; try discriminate; injection H as <-; tsimp; [discriminate|exact (So w t d W R)].
  - destruct (t_ph s) as [| | | | |r] eqn:P; try discriminate. destruct Inv as [_ _ _ _ _ I6]. rewrite P in I6. destruct I6 as [W0 _].
    intros w t d W R. exfalso. injection H as <-. destruct r; try rewrite when_close in W; tsimp; rewrite W0 in W; discriminate W.
Qed.
Lemma treach_soon fixed s : treach fixed s -> soon s.
Proof.
  induction 1 as [now|s e s' R IH H]; [intros w t d W; discriminate W|].
  exact (soon_step fixed s e s' (treach_inv _ _ R) IH H).
Qed.

Lemma run_app fixed es es' s : timed_run fixed s (es ++ es') =
  match timed_run fixed s es with Some s' => timed_run fixed s' es' | None => None end.
Proof. revert s. induction es as [|e es IH]; intros s; cbn; [reflexivity|]. destruct (timer_step fixed s e); [apply IH|reflexivity]. Qed.

Lemma ends_by_step fixed s e s' x : own e -> timer_step fixed s e = Some s' -> waiting_time [e] = 0 ->
  ends_by fixed s' x -> ends_by fixed s x.
Proof.
  intros O H W (es & s2 & F & L & R & P). exists (e :: es), s2. split; [constructor; assumption|]. split.
  - destruct e; cbn in *; lia.
  - split; [cbn; rewrite H; exact R|exact P].
Qed.
Lemma end_end fixed s r x : 0 <= x -> t_ph s = PEnd r -> ends_by fixed s x.
Proof.
  intros L P. eapply (ends_by_step _ _ TRet); [exact Logic.I|cbn; rewrite P; reflexivity|reflexivity|].
  exists [], (match r with TData _ => t_to PIdle (t_say (LRet (t_now s) r) s) | _ => t_close (t_to PIdle (t_say (LRet (t_now s) r) s)) end).
  split; [constructor|]. split; [exact L|]. split; [destruct r; reflexivity|]. destruct r; rewrite ?ph_close; reflexivity.
Qed.
Lemma end_have fixed s d r x : 0 <= x -> t_ph s = PHave d r -> ends_by fixed s x.
Proof.
  intros L P. destruct d as [d|]; (eapply (ends_by_step _ _ TStop); [exact Logic.I|cbn; rewrite P; reflexivity|reflexivity|]);
    apply (end_end _ _ r); [exact L|reflexivity|exact L|reflexivity].
Qed.
Lemma end_park fixed s d w x : 0 <= x -> w - t_now s <= x -> t_ph s = PPark (Some d) -> t_when s = Some w -> ends_by fixed s x.
Proof.
  intros L Lw P W.
  destruct (end_have fixed (t_done (Some d) TTimeout (t_timer None (t_tick s) (t_clock (t_now s + Z.max 0 (w - t_now s)) s))) (Some d) TTimeout 0
    ltac:(lia) eq_refl) as (es & s' & F & Lt & R & I).
  exists (TPass (Z.max 0 (w - t_now s)) :: TFire :: es), s'. split; [repeat constructor; exact F|]. split; [cbn; lia|].
  split; [|exact I]. cbn. destruct (Z.leb_spec 0 (Z.max 0 (w - t_now s))) as [L0|]; [|lia]. cbn. rewrite W, P.
  destruct (Z.leb_spec w (t_now s + Z.max 0 (w - t_now s))); [|lia]. exact R.
Qed.
Lemma end_armed fixed s d x : 0 <= x -> t_ph s = PArmed (Some d) -> (forall w, t_when s = Some w -> w - t_now s <= x) ->
  (t_when s = None -> t_tick s = true) -> ends_by fixed s x.
Proof.
  intros L P Lw Wn. destruct (t_tick s) eqn:K.
  - eapply (ends_by_step _ _ (TEnter KTick)); [exact Logic.I|cbn; rewrite P, K; reflexivity|reflexivity|].
    apply (end_have _ _ (Some d) TTimeout); [exact L|reflexivity].
  - destruct (t_in s) as [b|] eqn:N; [|destruct (t_closed s) eqn:C].
    + eapply (ends_by_step _ _ (TEnter KData)); [exact Logic.I|cbn; rewrite P, N; reflexivity|reflexivity|].
      apply (end_have _ _ (Some d) (TData b)); [exact L|reflexivity].
    + eapply (ends_by_step _ _ (TEnter KData)); [exact Logic.I|cbn; rewrite P, N, C; reflexivity|reflexivity|].
      apply (end_have _ _ (Some d) TClosed); [exact L|reflexivity].
    + destruct (t_when s) as [w|] eqn:W; [|discriminate (Wn eq_refl)].
      eapply (ends_by_step _ _ (TEnter KPark)); [exact Logic.I|cbn; rewrite P, K, N, C; reflexivity|reflexivity|].
      apply (end_park _ _ d w); cbn; auto.
Qed.
Theorem read_ends fixed s t0 d : treach fixed s -> limit (t_ph s) = Some d -> reading (t_log s) = Some (t0, Some d) ->
  ends_by fixed s (Z.max 0 (d - t0)).
Proof.
  intros Rch Lm R. pose proof (treach_inv _ _ Rch) as [_ _ _ _ _ I6]. pose proof (treach_soon _ _ Rch) as So.
  assert (L0 : 0 <= Z.max 0 (d - t0)) by lia.
  destruct (t_ph s) as [|d' u|d'|d'|d' r|r] eqn:P; cbn in Lm; try discriminate.
  - injection Lm as ->. destruct I6 as (W & T & t & R' & ->). rewrite R in R'. injection R' as <-.
    eapply (ends_by_step _ _ TArm); [exact Logic.I|cbn; rewrite P; reflexivity|reflexivity|].
    apply (end_armed _ _ d); [exact L0|reflexivity| |discriminate]. cbn. intros w E. injection E as <-. lia.
  - subst. destruct I6 as (_ & (_ & Wn) & _). apply (end_armed _ _ d); auto. intros w W. specialize (So _ _ _ W R). lia.
  - subst. destruct I6 as (_ & w & W & _). apply (end_park _ _ d w); auto. specialize (So _ _ _ W R). lia.
  - subst. apply (end_have _ _ (Some d) r); assumption.
Qed.

(* ---------- who goes on ---------- *)
Lemma treach_tinv fixed s : treach fixed s -> tinv fixed s.
Proof. induction 1; [apply new_tinv|eapply tinv_step; eauto]. Qed.
Lemma read_goes fixed s : treach fixed s -> t_ph s <> PIdle -> (forall d, t_ph s <> PPark d) ->
  exists e s', In e [TArm; TEnter KTick; TEnter KData; TEnter KPark; TStop; TRet] /\ timer_step fixed s e = Some s'.
Proof.
  intros _ N P. destruct (t_ph s) as [|d u|d|d|d r|r] eqn:Ph.
  - congruence.
  - exists TArm. eexists. split; [cbn; auto|]. cbn. rewrite Ph. reflexivity.
  - destruct (t_in s) as [b|] eqn:In_; [exists (TEnter KData); eexists; split; [cbn; auto|cbn; rewrite Ph, In_; reflexivity]|].
    destruct (t_closed s) eqn:Cl; [exists (TEnter KData); eexists; split; [cbn; auto|cbn; rewrite Ph, In_, Cl; reflexivity]|].
    destruct d as [d|].
    + destruct (t_tick s) eqn:Tk; [exists (TEnter KTick)|exists (TEnter KPark)]; eexists; (split; [cbn; tauto|]); cbn; rewrite Ph, Tk, ?In_, ?Cl; reflexivity.
    + exists (TEnter KPark). eexists. split; [cbn; tauto|]. cbn. rewrite Ph, In_, Cl. reflexivity.
  - destruct (P d eq_refl).
  - exists TStop. destruct d as [d|]; eexists; (split; [cbn; tauto|]); cbn; rewrite Ph; reflexivity.
  - exists TRet. eexists. split; [cbn; tauto|]. cbn. rewrite Ph. reflexivity.
Qed.
Lemma read_parked fixed s d : treach fixed s -> t_ph s = PPark d ->
  (forall b, exists s', timer_step fixed s (TPut b) = Some s' /\ t_ph s' = PHave d (TData b)) /\
  (t_on s = true -> exists s', timer_step fixed s TShut = Some s' /\ t_ph s' = PHave d TClosed) /\
  (forall s', timer_step fixed s TFire = Some s' -> exists x, d = Some x /\ x <= t_now s /\ t_ph s' = PHave d TTimeout) /\
  (forall x, d = Some x -> exists w, t_when s = Some w /\ x <= w /\
     forall n, w <= t_now s + n -> 0 <= n -> exists s1 s', timer_step fixed s (TPass n) = Some s1 /\ timer_step fixed s1 TFire = Some s') /\
  (forall e s', timer_step fixed s e = Some s' -> t_ph s' <> PPark d -> (exists b, e = TPut b) \/ e = TShut \/ e = TFire).
Proof.
  intros R Ph. pose proof (treach_tinv _ _ R) as [I1 I2 I3 I4 I5 I6]. destruct (I4 d Ph) as (C & N & _). rewrite Ph in I6. split; [|split; [|split; [|split]]].
  - intros b. cbn. rewrite Ph, C. eexists. split; reflexivity.
  - intros On. cbn. rewrite On. unfold t_close. rewrite On. cbn. rewrite Ph. eexists. split; reflexivity.
  - intros s' H. cbn in H. rewrite Ph in H. destruct (t_when s) as [w|] eqn:W; [|discriminate H]. destruct (Z.leb_spec w (t_now s)) as [L|]; [|discriminate H].
    destruct d as [x|]; [|destruct I6; discriminate]. destruct I6 as (_ & w' & W' & Lw). injection W' as <-. injection H as <-.
    exists x. split; [reflexivity|]. split; [lia|reflexivity].
  - intros x ->. destruct I6 as (_ & w & W & Lw). exists w. split; [exact W|]. split; [exact Lw|]. intros n Ln Hn. cbn. rewrite (proj2 (Z.leb_le 0 n) Hn).
    eexists. eexists. split; [reflexivity|]. cbn. rewrite Ph, W. rewrite (proj2 (Z.leb_le _ _) Ln). reflexivity.
  - intros e s' H D. destruct e as [n| |b| | |dl| |k| |]; eauto; exfalso; cbn in H; rewrite ?Ph in H; try discriminate H.
    + destruct (0 <=? n); [|discriminate H]. injection H as <-. exact (D Ph).
    + destruct (t_on s); [discriminate H|]. injection H as <-. exact (D Ph).
    + destruct k; discriminate H.
Qed.
