(* The in-memory transport: the number of steps of a call. *)
From Coq Require Import List Arith NArith ZArith Lia Bool.
From Verif Require Import BaseBytes BaseConc ModelMessage ModelWrite ModelMemchan SpecWire SpecWrite SpecMemchan SpecWaits.
From Verif Require Import ProofMemchan ProofMemchan2 ProofMemchan4 ProofMemchan5.
Import ListNotations.
Open Scope nat_scope.

Definition cl_left (c : clstate) : nat :=
  match c with ClStart => 6 | ClRemote => 5 | ClSel1 => 4 | ClSel2 => 3 | ClLocal => 2 | ClDisc => 1 | ClDone => 0 end.
Definition left_ (t : thread) : nat :=
  match t with
  | TWrite _ st => match st with WGet => 7 | WOpen => 6 | WFlush => 5 | WSend => 4 | WBlock => 3 | WSent => 2 | WParked => 1 | WReset _ => 1 | WDone _ => 0 end
  | TRead _ _ _ st => match st with RdStart => 9 | RdGet => 8 | RdWait _ => 7 | RdParse _ _ => 2 | RdAck _ => 1 | RdFail _ c => cl_left c | RdDone _ => 0 end
  | TClose _ c => cl_left c
  | TDial _ st => match st with DlHook => 7 | DlCAS => 6 | DlReset1 => 5 | DlReset2 => 4 | DlShut => 3 | DlActive => 2 | DlAdd => 1 | DlDone _ => 0 end
  | TDown st => match st with ShLoop todo => 7 * length todo + 1 | ShIn _ c todo => cl_left c + (7 * length todo + 1) | _ => 0 end
  end.
Lemma left_most t : left_ t <= most t.
Proof.
  destruct t as [k []|k m d []|k []|p []|[]]; cbn; try lia; match goal with |- context [cl_left ?c] => destruct c; cbn; lia end.
Qed.
Lemma own_less ts i n t n' t' w : trel ts i n t n' t' w -> listed t = true ->
  listed t' = true /\ (left_ t' < left_ t \/ (exists k, t = TWrite k WOpen /\ t' = t) \/ (n_crashed n' = true /\ 1 <= left_ t)).
Proof.
  intros T Li. tcases T k st n1 s1 H1 H0.
  - split; [reflexivity|]. inversion H1; subst; cbn; try (left; lia).
    + right. left. eauto.
    + right. right. split; [reflexivity|lia].
  - split; [reflexivity|]. inversion H1; subst; cbn; try (left; lia). right. right. split; [reflexivity|lia].
  - assert (Lt : cl_left s1 < cl_left st) by (destruct H0; cbn; lia).
    destruct t as [|k0 m d []|k0 c0| |[]]; try discriminate H1; injection H1 as <- <-;
      (split; [destruct s1; reflexivity|]); left; destruct s1; cbn in *; lia.
  - split; [reflexivity|]. inversion H1; subst; cbn; left; lia.
  - inversion H1; subst; try discriminate Li; (split; [reflexivity|]); left; cbn; lia.
Qed.
Lemma crashed_ends s es s' : n_crashed (s_net s) = true -> mrun s es = Some s' -> es = [].
Proof. intros C. destruct es as [|e es]; [reflexivity|]. cbn. unfold mstep. rewrite C. discriminate. Qed.
Lemma wopen_write ts i n k ch n' w : tstep ts i n (TWrite k WOpen) ch = Some (n', TWrite k WOpen, w) -> exists p, ch = ChWrite p.
Proof.
  cbn [tstep]. destruct ch; cbn [write_step]; try discriminate; eauto.
  destruct (free _); [|discriminate]. destruct (_ <? 1); discriminate.
Qed.
Lemma moves_cons i e es : moves i (e :: es) = match e with EvStep j (ChWrite _) => 0 | EvStep j _ => if j =? i then 1 else 0 | _ => 0 end + moves i es.
Proof.
  unfold moves. cbn [filter]. destruct e as [| | | | |j ch]; try reflexivity. destruct ch; try reflexivity; destruct (j =? i); reflexivity.
Qed.
Lemma call_left es : forall s s' i t, mrun s es = Some s' -> at_ s i t -> listed t = true -> moves i es <= left_ t.
Proof.
  induction es as [|e es IH]; intros s s' i t M I Li; [apply Nat.le_0_l|]. cbn [mrun] in M.
  destruct (mstep s e) as [s1|] eqn:E; [|discriminate]. rewrite moves_cons.
  destruct (begin e) as [u|] eqn:B.
  - destruct e as [| | | | |j ch]; try discriminate B; cbn [Nat.add]; eapply IH; eauto;
      apply mstep_rel in E as [_ E]; inversion E; subst; unfold at_; apply snoc_old; exact I.
  - destruct e as [| | | | |j ch]; try discriminate B. unfold mstep in E. destruct (n_crashed (s_net s)) eqn:Cr; [discriminate|].
    destruct (nth_error (s_ts s) j) as [u|] eqn:J; [|discriminate].
    destruct (tstep (s_ts s) j (s_net s) u ch) as [[[n' u'] w]|] eqn:T; [|discriminate].
    pose proof (step_rel _ _ _ _ _ _ _ _ T) as Tr.
    assert (Es : exists n'' ts', s1 = MkSys n'' ts' /\ n_crashed n'' = n_crashed n' /\
       (nth_error ts' j = Some u') /\
       (forall t0, j <> i -> nth_error (s_ts s) i = Some t0 -> exists t1, nth_error ts' i = Some t1 /\ left_ t1 <= left_ t0 /\ (listed t0 = true -> listed t1 = true))).
    { destruct w as [[x v]|]; cbn [wake] in E.
      - destruct (trel_wake _ _ _ _ _ _ _ _ Tr J) as (D & V & k & X). rewrite set_nth_ne in E by auto. rewrite X in E. injection E as <-.
        do 2 eexists. split; [reflexivity|]. split; [reflexivity|]. split; [rewrite set_nth_ne by auto; eapply set_nth_eq; eauto|].
        intros t0 Nj I0. destruct (Nat.eq_dec x i) as [->|Nx].
        + rewrite X in I0. injection I0 as <-. eexists. split; [eapply set_nth_eq; rewrite set_nth_ne by auto; exact X|]. split; [cbn; lia|reflexivity].
        + exists t0. rewrite !set_nth_ne by auto. auto.
      - injection E as <-. do 2 eexists. split; [reflexivity|]. split; [reflexivity|]. split; [eapply set_nth_eq; eauto|].
        intros t0 Nj I0. exists t0. rewrite set_nth_ne by auto. auto. }
    destruct Es as (n'' & ts' & -> & Ec & Ej & Eo).
    destruct (Nat.eqb_spec j i) as [->|Nj].
    + unfold at_ in I. rewrite I in J. injection J as <-. destruct (own_less _ _ _ _ _ _ _ Tr Li) as [Li' D].
      assert (Rest : moves i es <= left_ u') by (eapply IH; [exact M|exact Ej|exact Li']).
      destruct D as [D|[(k & -> & Eq)|[D D1]]].
      * destruct ch; lia.
      * rewrite Eq in *. apply wopen_write in T as [p ->]. exact Rest.
      * apply crashed_ends in M; [|cbn; congruence]. subst es. destruct ch; cbn; lia.
    + destruct (Eo _ Nj I) as (t1 & I1 & Le & Ll). assert (Rest : moves i es <= left_ t1) by (eapply IH; [exact M|exact I1|auto]). destruct ch; lia.
Qed.
Lemma call_most s es s' i t : mrun s es = Some s' -> at_ s i t -> listed t = true -> moves i es <= most t.
Proof. intros M I Li. pose proof (call_left _ _ _ _ _ M I Li). pose proof (left_most t). lia. Qed.
(* Shutdown: what it closes *)
Lemma listing s i ch s' : at_ s i (TDown ShList) -> mstep s (EvStep i ch) = Some s' ->
  exists l, ch = ChOrder l /\ length l = length (n_conns (s_net s)) /\ s' = MkSys (s_net s) (set_nth (s_ts s) i (TDown (ShLoop l))).
Proof.
  unfold mstep, at_. intros I. destruct (n_crashed (s_net s)); [discriminate|]. rewrite I. cbn [tstep down_step]. destruct ch; try discriminate.
  destruct (same_elements l (n_conns (s_net s))) eqn:E; [|discriminate]. cbn [wake]. intros H. injection H as <-. exists l. split; [reflexivity|].
  split; [|reflexivity]. unfold same_elements in E. apply andb_prop in E as [E _]. apply andb_prop in E as [E _]. apply Nat.eqb_eq. exact E.
Qed.
