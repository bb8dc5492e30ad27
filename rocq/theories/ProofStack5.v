(* What the transport's writers of the server send. *)
From Coq Require Import List Arith ZArith Lia Bool.
From Verif Require Import BaseBytes BaseConc ModelMessage ModelWrite ModelHandle ModelStack SpecWrite SpecStack ProofStack ProofStack2 ProofStack3.
From Verif Require ModelDispatch ModelMemchan SpecDispatch SpecMemchan.
From Verif Require ProofDispatch ProofDispatch3 ProofMemchan ProofMemchan2 ProofMemchan5 ProofMemchan6 ProofMemchan8 ProofStackNet ProofStackSrv.
Import ListNotations.
Open Scope nat_scope.

Lemma failed_snoc j l e : write_failed j (l ++ [e]) = write_failed j l || match e with ModelMemchan.LWrite i _ _ false => i =? j | _ => false end.
Proof. unfold write_failed. rewrite existsb_app. cbn. rewrite orb_false_r. reflexivity. Qed.
Lemma trel_failed ts i n t n' t' w x : ProofMemchan.trel ts i n t n' t' w -> x <> i ->
  write_failed x (ModelMemchan.n_log n') = write_failed x (ModelMemchan.n_log n).
Proof.
  intros T X. apply ProofMemchan2.neb in X. ProofMemchan2.tcases T k st n1 s1 H1 H0.
  - inversion H1; subst; ProofMemchan.netu; ProofMemchan.netc; rewrite ?failed_snoc, ?X, ?orb_false_r; auto. destruct ok; rewrite ?X, ?orb_false_r; auto.
  - inversion H1; subst; ProofMemchan.netu; ProofMemchan.netc; rewrite ?failed_snoc, ?orb_false_r; auto.
  - assert (Q : ModelMemchan.n_log n1 = ModelMemchan.n_log n) by (destruct H0; reflexivity).
    destruct t as [| ? ? ? []| | |[]]; try discriminate H1; destruct s1; cbn [ProofMemchan.end_close ProofMemchan.to_close]; ProofMemchan.netu; ProofMemchan.netc; rewrite ?failed_snoc, ?orb_false_r; rewrite ?Q; auto.
  - inversion H1; subst; ProofMemchan.netu; ProofMemchan.netc; rewrite ?failed_snoc, ?orb_false_r; auto.
  - inversion H1; subst; ProofMemchan.netu; ProofMemchan.netc; rewrite ?failed_snoc, ?orb_false_r; auto.
Qed.
Lemma others_log s e s' x : ProofMemchan.srel_ s e s' -> (forall ch, e <> ModelMemchan.EvStep x ch) ->
  let l := ModelMemchan.n_log (ModelMemchan.s_net s) in let l' := ModelMemchan.n_log (ModelMemchan.s_net s') in
  ProofMemchan2.mine x l' = ProofMemchan2.mine x l /\ SpecMemchan.pending x l' = SpecMemchan.pending x l /\ write_failed x l' = write_failed x l.
Proof.
  intros R D. cbv zeta. destruct R as [e0 t B|i ch t n' t' I T|i ch t n' t' j v k I T Ne V J]; cbn; [auto| |].
  - assert (X : x <> i) by (intros ->; eapply D; reflexivity). destruct (ProofMemchan2.trel_log _ _ _ _ _ _ _ _ T X). rewrite (trel_failed _ _ _ _ _ _ _ _ T X). auto.
  - change (ModelMemchan.n_log (ModelMemchan.set_wlk k None n')) with (ModelMemchan.n_log n').
    assert (X : x <> i) by (intros ->; eapply D; reflexivity). destruct (ProofMemchan2.trel_log _ _ _ _ _ _ _ _ T X). rewrite (trel_failed _ _ _ _ _ _ _ _ T X). auto.
Qed.
(* a thread that does not step is the same, or a writer told a result *)
Lemma others_thread s e s' x u : ProofMemchan.srel_ s e s' -> (forall ch, e <> ModelMemchan.EvStep x ch) -> SpecMemchan.at_ s x u ->
  SpecMemchan.at_ s' x u \/ exists k v, u = ModelMemchan.TWrite k ModelMemchan.WParked /\ SpecMemchan.at_ s' x (ModelMemchan.TWrite k (ModelMemchan.WReset v)).
Proof.
  unfold SpecMemchan.at_. intros R D A. destruct R as [e0 t B|i ch t n' t' I T|i ch t n' t' j v k I T Ne V J]; cbn.
  - left. rewrite nth_error_app1; [exact A|]. apply nth_error_Some. congruence.
  - left. assert (X : i <> x) by (intros ->; eapply D; reflexivity). rewrite set_nth_ne; assumption.
  - assert (X : i <> x) by (intros ->; eapply D; reflexivity).
    destruct (Nat.eq_dec j x) as [->|Y].
    + right. rewrite A in J. injection J as ->. exists k, v. split; [reflexivity|]. eapply set_nth_eq. rewrite set_nth_ne; eassumption.
    + left. rewrite !set_nth_ne; assumption.
Qed.

(* the steps of a writer *)
Lemma writer_steps s j ch s' k st : ModelMemchan.mstep s (ModelMemchan.EvStep j ch) = Some s' ->
  SpecMemchan.at_ s j (ModelMemchan.TWrite k st) ->
  let l := ModelMemchan.n_log (ModelMemchan.s_net s) in let l' := ModelMemchan.n_log (ModelMemchan.s_net s') in
  exists st', SpecMemchan.at_ s' j (ModelMemchan.TWrite k st') /\
  match st with
  | ModelMemchan.WGet => l' = l ++ [ModelMemchan.LOpen j k] /\ st' = ModelMemchan.WOpen \/
      l' = l ++ [ModelMemchan.LWriter j k ModelMemchan.WrDisconnected] /\ st' = ModelMemchan.WDone ModelMemchan.WrDisconnected
  | ModelMemchan.WOpen =>
      (exists p ok, ch = ModelMemchan.ChWrite p /\ l' = l ++ [ModelMemchan.LWrite j k p ok] /\ st' = ModelMemchan.WOpen) \/
      (ch = ModelMemchan.ChClose /\ ModelMemchan.u_blk (ModelMemchan.n_sock (ModelMemchan.s_net s) k) = None /\
        (l' = l /\ st' = ModelMemchan.WFlush /\ ModelMemchan.b_len (ModelMemchan.u_buf (ModelMemchan.n_sock (ModelMemchan.s_net s) k)) <> 0 \/
         l' = l ++ [ModelMemchan.LWriter j k ModelMemchan.WrEmpty] /\ st' = ModelMemchan.WDone ModelMemchan.WrEmpty))
  | ModelMemchan.WFlush => l' = l /\ (st' = ModelMemchan.WSend \/ st' = ModelMemchan.WReset ModelMemchan.WrClosed)
  | ModelMemchan.WSend => l' = l /\ (st' = ModelMemchan.WSend \/ st' = ModelMemchan.WBlock) \/
      exists g, l' = l ++ [ModelMemchan.LSend j k g (ProofMemchan2.full (ModelMemchan.s_net s) k)] /\ st' = ModelMemchan.WSent
  | ModelMemchan.WBlock => exists g, l' = l ++ [ModelMemchan.LSend j k g (ProofMemchan2.full (ModelMemchan.s_net s) k)] /\ st' = ModelMemchan.WSent
  | ModelMemchan.WSent => l' = l /\ st' = ModelMemchan.WParked
  | ModelMemchan.WParked => False
  | ModelMemchan.WReset r => l' = l ++ [ModelMemchan.LWriter j k r] /\ st' = ModelMemchan.WDone r
  | ModelMemchan.WDone _ => False
  end.
Proof.
  cbv zeta. unfold SpecMemchan.at_. intros H A. unfold ModelMemchan.mstep in H. destruct (ModelMemchan.n_crashed (ModelMemchan.s_net s)); [discriminate|].
  rewrite A in H. cbn [ModelMemchan.tstep] in H.
  destruct (ModelMemchan.write_step j (ModelMemchan.s_net s) k st ch) as [[[n' st'] w]|] eqn:W; [|discriminate].
  assert (Q : w = None /\ match st with
  | ModelMemchan.WGet => ModelMemchan.n_log n' = ModelMemchan.n_log (ModelMemchan.s_net s) ++ [ModelMemchan.LOpen j k] /\ st' = ModelMemchan.WOpen \/
      ModelMemchan.n_log n' = ModelMemchan.n_log (ModelMemchan.s_net s) ++ [ModelMemchan.LWriter j k ModelMemchan.WrDisconnected] /\ st' = ModelMemchan.WDone ModelMemchan.WrDisconnected
  | ModelMemchan.WOpen =>
      (exists p ok, ch = ModelMemchan.ChWrite p /\ ModelMemchan.n_log n' = ModelMemchan.n_log (ModelMemchan.s_net s) ++ [ModelMemchan.LWrite j k p ok] /\ st' = ModelMemchan.WOpen) \/
      (ch = ModelMemchan.ChClose /\ ModelMemchan.u_blk (ModelMemchan.n_sock (ModelMemchan.s_net s) k) = None /\
        (ModelMemchan.n_log n' = ModelMemchan.n_log (ModelMemchan.s_net s) /\ st' = ModelMemchan.WFlush /\ ModelMemchan.b_len (ModelMemchan.u_buf (ModelMemchan.n_sock (ModelMemchan.s_net s) k)) <> 0 \/
         ModelMemchan.n_log n' = ModelMemchan.n_log (ModelMemchan.s_net s) ++ [ModelMemchan.LWriter j k ModelMemchan.WrEmpty] /\ st' = ModelMemchan.WDone ModelMemchan.WrEmpty))
  | ModelMemchan.WFlush => ModelMemchan.n_log n' = ModelMemchan.n_log (ModelMemchan.s_net s) /\ (st' = ModelMemchan.WSend \/ st' = ModelMemchan.WReset ModelMemchan.WrClosed)
  | ModelMemchan.WSend => ModelMemchan.n_log n' = ModelMemchan.n_log (ModelMemchan.s_net s) /\ (st' = ModelMemchan.WSend \/ st' = ModelMemchan.WBlock) \/
      exists g, ModelMemchan.n_log n' = ModelMemchan.n_log (ModelMemchan.s_net s) ++ [ModelMemchan.LSend j k g (ProofMemchan2.full (ModelMemchan.s_net s) k)] /\ st' = ModelMemchan.WSent
  | ModelMemchan.WBlock => exists g, ModelMemchan.n_log n' = ModelMemchan.n_log (ModelMemchan.s_net s) ++ [ModelMemchan.LSend j k g (ProofMemchan2.full (ModelMemchan.s_net s) k)] /\ st' = ModelMemchan.WSent
  | ModelMemchan.WSent => ModelMemchan.n_log n' = ModelMemchan.n_log (ModelMemchan.s_net s) /\ st' = ModelMemchan.WParked
  | ModelMemchan.WParked => False
  | ModelMemchan.WReset r => ModelMemchan.n_log n' = ModelMemchan.n_log (ModelMemchan.s_net s) ++ [ModelMemchan.LWriter j k r] /\ st' = ModelMemchan.WDone r
  | ModelMemchan.WDone _ => False
  end).
  { clear H. destruct st, ch; cbn [ModelMemchan.write_step] in W; cbv zeta in W; try discriminate W;
      repeat match type of W with
        | context [ModelMemchan.free ?x] => destruct x eqn:?; cbn [ModelMemchan.free] in W; try discriminate W
        | context [ModelMemchan.n_on ?n ?p] => destruct (ModelMemchan.n_on n p) eqn:?
        | context [ModelMemchan.h_closed ?x] => destruct (ModelMemchan.h_closed x) eqn:?
        | context [match ModelMemchan.h_data ?x with _ => _ end] => destruct (ModelMemchan.h_data x) eqn:?; try discriminate W
        | context [ModelMemchan.buf_write ?x ?y] => destruct (ModelMemchan.buf_write x y) as [? ?] eqn:?
        | context [if ?x <? 1 then _ else _] => destruct (Nat.ltb_spec x 1)
        end; (injection W as <- <- <-; (split; [reflexivity|]); eauto 10).
    1:{ left. exists p, b0. auto. }
    - right. split; [reflexivity|]. split; [reflexivity|]. left. repeat split; auto. lia.
    - right. eexists. split; reflexivity.
    - eexists. split; reflexivity. }
  destruct Q as [-> Q]. cbn in H. injection H as <-. exists st'. split; [exact (set_nth_eq _ _ _ _ A)|exact Q].
Qed.

Definition wtext (s : stack) (j : nat) (f : bytes) (t : ModelMemchan.thread) : Prop :=
  match t with
  | ModelMemchan.TWrite k ModelMemchan.WOpen => write_failed j (tlog s) = true -> SpecMemchan.pending j (tlog s) = []
  | ModelMemchan.TWrite k (ModelMemchan.WFlush | ModelMemchan.WSend | ModelMemchan.WBlock) => SpecMemchan.pending j (tlog s) = f
  | _ => True
  end.
Definition texts (s : stack) : Prop := forall j f t, k_text s j = Some f -> nthread s j = Some t ->
  wtext s j f t /\ forall k g b, In (ModelMemchan.LSend j k g b) (tlog s) -> b = f.
Lemma sends_mine j k g b l : In (ModelMemchan.LSend j k g b) l <-> In (ModelMemchan.LSend j k g b) (ProofMemchan2.mine j l).
Proof. unfold ProofMemchan2.mine. rewrite filter_In. cbn. rewrite Nat.eqb_refl. tauto. Qed.
Lemma texts_step buf s e s' : SpecMemchan.mreach buf SpecMemchan.anything (k_net s) -> owned buf s -> kcase s e s' -> texts s -> texts s'.
Proof.
  intros R O K IH j f t' Tx N'.
  destruct (ProofMemchan2.invariants _ _ _ R) as [Lk Bk].
  destruct (le_lt_dec (length (ModelMemchan.s_ts (k_net s))) j) as [Ge|Lj].
  { (* a new writer *)
    destruct K as [|i0 r0 r1 Nr Rs|Na Nc|e0 n Ok M|j0 lim p n v N0 M Dd|i0 t u0 n St Nu M|i0 ch t v St As Nt Dd|i0 lim v j0 u0 x St As Io Rt Dd|i0 ch t v j0 u0 x St As Io Rt Nc Dd|e v Be Dd];
      try (exfalso; pose proof (O_text _ _ O _ _ Tx); lia).
    cbn in Tx, N' |- *. destruct (call_begins _ _ _ _ M) as (x & -> & Tg & Bg). cbn in N' |- *.
    apply nth_error_snoc_some in N' as [N'|[-> ->]]; [exfalso; assert (j < length (ModelMemchan.s_ts (k_net s))) by (apply nth_error_Some; congruence); lia|].
    split.
    - rewrite begin_call in Bg. injection Bg as <-. destruct u0; exact Logic.I.
    - intros k g b L. exfalso. apply sends_mine in L. rewrite (ProofMemchan2.K_none _ _ _ Bk) in L; [destruct L|lia]. }
  assert (Tx0 : k_text s j = Some f) by (rewrite <- (text_keep _ _ _ K _ Lj); exact Tx).
  destruct (nthread s j) as [t|] eqn:N; [|apply nth_error_None in N; lia].
  destruct (IH j f t Tx0 N) as [Wt Sn].
  pose proof (kcase_net _ _ _ K) as P. destruct (net_event s e) as [e'|] eqn:Ne.
  2:{ rewrite P in N'. rewrite N in N'. injection N' as <-. unfold wtext in *. rewrite P. auto. }
  destruct (ProofMemchan.mstep_rel _ _ _ P) as [_ Q].
  destruct e' as [k|k m d|k|p| |i ch]; cycle 5.
  1:{ destruct (Nat.eq_dec i j) as [->|Dj].
    - (* its own step *)
      destruct t as [k st|k m d st|k st|p st|st].
      2-5: (split; [destruct (nthread_keep _ _ _ K _ _ N) as (x & X1 & X2); rewrite N' in X1; injection X1 as <-; destruct t'; try discriminate X2; exact Logic.I|];
            intros k0 g b L; exfalso; apply sends_mine in L;
            destruct (ProofMemchan2.invariants _ _ _ (SpecMemchan.MR_step _ _ _ _ _ R P Logic.I)) as [_ Bk'];
            destruct (nthread_keep _ _ _ K _ _ N) as (x & X1 & X2); rewrite N' in X1; injection X1 as <-;
            pose proof (ProofMemchan2.K_story _ _ _ Bk' _ _ N') as Sy; destruct t'; try discriminate X2; cbn in Sy; rewrite Sy in L; destruct L).
      pose proof (ProofMemchan2.K_story _ _ _ Bk _ _ N) as Sy.
      destruct (writer_steps _ _ _ _ _ _ P N) as (st' & A' & C). unfold SpecMemchan.at_ in A'. rewrite N' in A'. injection A' as ->.
      assert (Sn' : forall x, tlog s' = tlog s ++ [x] -> (forall k g b, x = ModelMemchan.LSend j k g b -> b = f) ->
        forall k g b, In (ModelMemchan.LSend j k g b) (tlog s') -> b = f).
      { intros x E Hx k0 g b L. rewrite E in L. apply in_app_or in L as [L|[L|[]]]; eauto. }
      destruct st; cbn in C.
      + destruct C as [[E ->]|[E ->]]; (split; [|apply (Sn' _ E); discriminate]); [|exact Logic.I].
        cbn. intros _. rewrite E, ProofMemchan2.pending_snoc. cbn. rewrite Nat.eqb_refl. reflexivity.
      + cbn in Sy, Wt.
        assert (Okn : net_ok s (ModelMemchan.EvStep j ch) = true).
        { destruct K as [|i0 r0 r1 Nr Rs|Na Nc|e0 n Ok M|j0 lim p n v N0 M Dd|i0 t u0 n St Nu M|i0 ch0 t v St As Nt Dd|i0 lim v j0 u0 x St As Io Rt Dd|i0 ch0 t v j0 u0 x St As Io Rt Nc Dd|e v Be Dd]; cbn in Ne; try discriminate Ne.
          - injection Ne as ->. exact Ok.
          - injection Ne as -> _. congruence.
          - rewrite St, Nu in Ne. destruct u0; discriminate Ne. }
        cbn in Okn. rewrite N, Tx0 in Okn.
        destruct C as [(p & ok & -> & E & ->)|(-> & Bl & [(E & -> & Nz)|[E ->]])].
        * split; [|apply (Sn' _ E); discriminate]. cbn in Okn |- *. apply negb_true_iff in Okn. rewrite E, failed_snoc, Okn, ProofMemchan2.pending_snoc. cbn.
          rewrite Nat.eqb_refl. destruct ok; [discriminate|reflexivity].
        * split; [|rewrite E; exact Sn]. cbn. rewrite E. destruct Sy as (_ & Fl & _). specialize (Fl Bl). unfold ProofMemchan2.full in Fl.
          apply orb_true_iff in Okn as [Okn|Okn].
          -- exfalso. rewrite (Wt Okn) in Fl. pose proof (ProofMemchan2.K_size _ _ _ Bk k) as [Sz Le]. apply (f_equal (@length _)) in Fl.
             unfold ModelMemchan.slice in Fl. rewrite firstn_length in Fl. cbn in Fl. lia.
          -- rewrite <- Fl. match type of Okn with bytes_eqb ?a ?b = _ => destruct (bytes_eqb_spec a b) as [X|]; [exact X|discriminate Okn] end.
        * split; [exact Logic.I|]. apply (Sn' _ E). discriminate.
      + destruct C as [E [-> | ->]]; (split; [|rewrite E; exact Sn]); cbn; auto. rewrite E. exact Wt.
      + destruct C as [[E [-> | ->]]|(g & E & ->)].
        * split; [|rewrite E; exact Sn]. cbn. rewrite E. exact Wt.
        * split; [|rewrite E; exact Sn]. cbn. rewrite E. exact Wt.
        * split; [exact Logic.I|]. apply (Sn' _ E). intros k0 g0 b [=]. subst. destruct Sy as (_ & Fl & _). cbn in Wt. congruence.
      + destruct C as (g & E & ->). split; [exact Logic.I|]. apply (Sn' _ E). intros k0 g0 b [=]. subst. destruct Sy as (_ & Fl & _). cbn in Wt. congruence.
      + destruct C as [E ->]. split; [exact Logic.I|]. rewrite E. exact Sn.
      + destruct C.
      + destruct C as [E ->]. split; [exact Logic.I|]. apply (Sn' _ E). discriminate.
      + destruct C.
    - (* a step of another thread *)
      assert (Hn : forall ch', ModelMemchan.EvStep i ch <> ModelMemchan.EvStep j ch') by congruence.
      destruct (others_log _ _ _ j Q Hn) as (M1 & M2 & M3).
      split.
      + destruct (others_thread _ _ _ _ _ Q Hn N) as [A'|(k & v & -> & A')]; unfold SpecMemchan.at_ in A'; rewrite N' in A'; injection A' as ->; [|exact Logic.I].
        unfold wtext in *. rewrite M2, M3. exact Wt.
      + intros k g b L. apply sends_mine in L. rewrite M1 in L. apply sends_mine in L. eauto. }
  all: (match type of Q with ProofMemchan.srel_ _ ?e0 _ => assert (Hn : forall ch', e0 <> ModelMemchan.EvStep j ch') by discriminate end;
      destruct (others_log _ _ _ j Q Hn) as (M1 & M2 & M3);
      split;
      [destruct (others_thread _ _ _ _ _ Q Hn N) as [A'|(k' & v & -> & A')]; unfold SpecMemchan.at_ in A'; rewrite N' in A'; injection A' as ->; [|exact Logic.I];
        unfold wtext in *; rewrite M2, M3; exact Wt
      |intros k' g b L; apply sends_mine in L; rewrite M1 in L; apply sends_mine in L; eauto]).
Qed.
Lemma texts_all buf conf ok s : kreach buf conf ok s -> texts s.
Proof.
  induction 1 as [|s e s' R IH H Ok].
  - intros j f t X. discriminate X.
  - destruct (kstep_inv _ _ _ H) as [_ K]. exact (texts_step _ _ _ _ (reach_net_any _ _ _ _ R) (owned_all _ _ _ _ R) K IH).
Qed.
