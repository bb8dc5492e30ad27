(* Histories of calls on in-memory sockets. *)
From Coq Require Import List Arith ZArith Bool Lia.
From Verif Require Import BaseBytes BaseConc ModelMessage ModelMemchan ModelSocket SpecSocket ProofSocket ProofSocket2.
Import ListNotations.
Open Scope nat_scope.

Definition W (l : list call) : world := fst (spec_run empty_world l).
Lemma RW l : R (after l) (W l).
Proof. apply run_R, R_empty. Qed.
Lemma says_spec l c : says l c = snd (spec_step (W l) c).
Proof. apply step_R, RW. Qed.
Lemma links_answers l : answers l = snd (spec_run empty_world l) /\ h_new (after l) = w_new (fst (spec_run empty_world l)).
Proof. split; [apply (run_R l _ _ R_empty)|apply (R_n _ _ (RW l))]. Qed.

Lemma run_app l1 l2 h : run h (l1 ++ l2) =
  (fst (run (fst (run h l1)) l2), snd (run h l1) ++ snd (run (fst (run h l1)) l2)).
Proof.
  revert h. induction l1 as [|c l1 IH]; intros h; cbn [app run].
  - cbn. destruct (run h l2); reflexivity.
  - destruct (step h c) as [h1 a]. rewrite IH. destruct (run h1 l1) as [h2 r]. reflexivity.
Qed.
Lemma spec_run_app l1 l2 w : spec_run w (l1 ++ l2) =
  (fst (spec_run (fst (spec_run w l1)) l2), snd (spec_run w l1) ++ snd (spec_run (fst (spec_run w l1)) l2)).
Proof.
  revert w. induction l1 as [|c l1 IH]; intros w; cbn [app spec_run].
  - cbn. destruct (spec_run w l2); reflexivity.
  - destruct (spec_step w c) as [h1 a]. rewrite IH. destruct (spec_run h1 l1) as [h2 r]. reflexivity.
Qed.
Lemma W_snoc l c : W (l ++ [c]) = fst (spec_step (W l) c).
Proof. unfold W. rewrite spec_run_app. cbn. destruct (spec_step _ c). reflexivity. Qed.
Lemma answers_snoc l c : answers (l ++ [c]) = answers l ++ [says l c].
Proof. unfold answers, says, after. rewrite run_app. cbn. destruct (step _ c). reflexivity. Qed.
Lemma after_snoc l c : after (l ++ [c]) = fst (step (after l) c).
Proof. unfold after. rewrite run_app. cbn. destruct (step _ c). reflexivity. Qed.
Lemma answers_length l : length (answers l) = length l.
Proof.
  unfold answers. generalize empty_heap. induction l as [|c l IH]; intros h; cbn; [reflexivity|].
  destruct (step h c) as [h1 a]. specialize (IH h1). destruct (run h1 l). cbn in *. f_equal. assumption.
Qed.

Lemma remote_spec l k a : says l (CRemoteAddr k) = Addr (Some a) <->
  exists cl p m, nth_error (w_ends (W l)) k = Some (cl, p) /\ nth_error (w_links (W l)) p = Some m /\
    a = far m cl k.
Proof.
  rewrite says_spec. cbn [spec_step]. pose proof (R_end _ _ k (RW l)) as Q. destruct (end_of (W l) k) as [[[cl p] m]|].
  - destruct Q as (E & El & _). cbn [snd]. split.
    + intros [= <-]. exists cl, p, m. auto.
    + intros (cl' & p' & m' & E' & El' & ->). rewrite E in E'. injection E' as <- <-. rewrite El in El'. injection El' as <-. reflexivity.
  - destruct Q as [_ E]. split; [discriminate|]. intros (cl' & p' & m' & E' & _). congruence.
Qed.
Lemma connected_spec l k b : says l (CIsConnected k) = IsIt b <->
  exists cl p m, nth_error (w_ends (W l)) k = Some (cl, p) /\ nth_error (w_links (W l)) p = Some m /\ b = l_up m.
Proof.
  rewrite says_spec. cbn [spec_step]. pose proof (R_end _ _ k (RW l)) as Q. destruct (end_of (W l) k) as [[[cl p] m]|].
  - destruct Q as (E & El & _). cbn [snd]. split.
    + intros [= <-]. exists cl, p, m. auto.
    + intros (cl' & p' & m' & E' & El' & ->). rewrite E in E'. injection E' as <- <-. rewrite El in El'. injection El' as <-. reflexivity.
  - destruct Q as [_ E]. split; [discriminate|]. intros (cl' & p' & m' & E' & _). congruence.
Qed.
Lemma far_some m cl k c : far m cl k = Some c -> exists t, l_server m = Some t /\ c = peer cl k.
Proof. unfold far. destruct (l_server m) as [t|]; [|discriminate]. intros [= <-]. eauto. Qed.

Lemma ends_agree l s c : says l (CRemoteAddr s) = Addr (Some (Some c)) ->
  s <> c /\ says l (CRemoteAddr c) = Addr (Some (Some s)) /\
  says l (CIsConnected s) = says l (CIsConnected c) /\ exists b, says l (CIsConnected s) = IsIt b.
Proof.
  intros H. apply remote_spec in H as (cl & p & m & E & El & F). symmetry in F. apply far_some in F as (t & Es & ->).
  destruct (peer_peer _ _ s cl p m t (RW l) E El Es) as [PP PN].
  pose proof (R_p _ _ (RW l) s cl p m E El) as Q. rewrite Es in Q.
  assert (A : says l (CIsConnected s) = IsIt (l_up m)) by (apply connected_spec; eauto 8).
  assert (B : says l (CIsConnected (peer cl s)) = IsIt (l_up m)) by (apply connected_spec; eauto 8).
  split; [congruence|]. split; [|rewrite A, B; eauto].
  apply remote_spec. exists (negb cl), p, m. unfold far. rewrite Es, PP. auto.
Qed.
Lemma address_injective l a b c : says l (CRemoteAddr a) = Addr (Some (Some c)) ->
  says l (CRemoteAddr b) = Addr (Some (Some c)) -> a = b.
Proof.
  intros A B. apply ends_agree in A as (_ & A & _). apply ends_agree in B as (_ & B & _). congruence.
Qed.

(* what a call leaves as it was *)
Lemma step_keeps w c k cl p m : nth_error (w_ends w) k = Some (cl, p) -> nth_error (w_links w) p = Some m ->
  nth_error (w_ends (fst (spec_step w c))) k = Some (cl, p) /\
  exists m', nth_error (w_links (fst (spec_step w c))) p = Some m' /\ l_server m' = l_server m /\ l_size m' = l_size m.
Proof.
  intros E El.
  assert (S1 : forall A (x : list A) y i z, nth_error x i = Some z -> nth_error (x ++ y) i = Some z).
  { intros A x y i z Q. rewrite nth_error_app1; [assumption|]. apply nth_error_Some. congruence. }
  assert (M : forall f, (forall x, l_server (f x) = l_server x /\ l_size (f x) = l_size x) ->
    exists m', nth_error (map f (w_links w)) p = Some m' /\ l_server m' = l_server m /\ l_size m' = l_size m).
  { intros f Hf. rewrite nth_error_map, El. cbn. eexists. split; [reflexivity|]. apply Hf. }
  assert (T : forall q m0 u li, nth_error (w_links w) q = Some m0 ->
    exists m', nth_error (set_nth (w_links w) q (turn u li m0)) p = Some m' /\ l_server m' = l_server m /\ l_size m' = l_size m).
  { intros q m0 u li Eq. rewrite nth_set. destruct (Nat.eqb_spec q p) as [->|]; [|eauto 10].
    rewrite El in *. injection Eq as <-. eexists. split; [reflexivity|]. auto. }
  destruct c as [user|t size|t|[t|]|j o d|j|j|j|j b|j|t order]; cbn [spec_step].
  - cbn. eauto 10.
  - destruct (nth_error (w_services w) t); cbn; [|eauto 10]. split; [assumption|]. apply M. intros x. destruct (of_service t x); auto.
  - destruct (nth_error (w_services w) t) as [v|]; [|cbn; eauto 10]. destruct (v_size v =? 0); cbn; eauto 10.
  - destruct (nth_error (w_services w) t) as [v|]; [|cbn; eauto 10]. destruct (v_size v =? 0); cbn; eauto 10.
  - cbn. eauto 10.
  - unfold end_of. destruct (nth_error (w_ends w) j) as [[[] q]|]; [|destruct (nth_error (w_links w) q); cbn; eauto 10|cbn; eauto 10].
    destruct (nth_error (w_links w) q) as [m0|] eqn:Eq; [|cbn; eauto 10]. unfold spec_dial.
    destruct (l_server m0) as [t|]; [|cbn; eauto 10]. destruct (nth_error (w_services w) t) as [v|]; [|cbn; eauto 10].
    destruct (o_refuse _); [cbn; eauto 10|]. destruct (l_up m0); [cbn; eauto 10|]. destruct d; [cbn; eauto 10|].
    destruct (negb _); cbn; eauto 10.
  - unfold end_of. destruct (nth_error (w_ends w) j) as [[cl' q]|]; [|cbn; eauto 10].
    destruct (nth_error (w_links w) q) as [m0|] eqn:Eq; cbn; eauto 10.
  - destruct (end_of w j) as [[[]]|]; cbn; eauto 10.
  - destruct (end_of w j) as [[[]]|]; cbn; eauto 10.
  - destruct (end_of w j) as [[[]]|]; cbn; eauto 10.
  - destruct (end_of w j) as [[[]]|]; cbn; eauto 10.
  - destruct (nth_error (w_services w) t) as [v|]; [|cbn; eauto 10]. destruct (v_active v); [|cbn; eauto 10]. cbn. split; [assumption|].
    apply M. intros x. destruct (_ && _); auto.
Qed.
Lemma run_keeps l w k cl p m : nth_error (w_ends w) k = Some (cl, p) -> nth_error (w_links w) p = Some m ->
  nth_error (w_ends (fst (spec_run w l))) k = Some (cl, p) /\
  exists m', nth_error (w_links (fst (spec_run w l))) p = Some m' /\ l_server m' = l_server m /\ l_size m' = l_size m.
Proof.
  revert w m. induction l as [|c l IH]; intros w m E El; cbn [spec_run fst]; [eauto 10|].
  destruct (step_keeps w c k cl p m E El) as (E1 & m1 & El1 & A1 & B1).
  destruct (spec_step w c) as [w1 a]. cbn [fst] in *. destruct (IH w1 m1 E1 El1) as (E2 & m2 & El2 & A2 & B2).
  destruct (spec_run w1 l) as [w2 r]. cbn [fst] in *. split; [assumption|]. exists m2. repeat split; congruence.
Qed.
Lemma W_app l1 l2 : W (l1 ++ l2) = fst (spec_run (W l1) l2).
Proof. unfold W. rewrite spec_run_app. reflexivity. Qed.
Lemma address_stays l l' k a : says l (CRemoteAddr k) = Addr (Some a) -> says (l ++ l') (CRemoteAddr k) = Addr (Some a).
Proof.
  intros H. apply remote_spec in H as (cl & p & m & E & El & ->). apply remote_spec. rewrite W_app.
  destruct (run_keeps l' _ k cl p m E El) as (E1 & m1 & El1 & A & B). exists cl, p, m1. repeat split; auto. unfold far. rewrite A. reflexivity.
Qed.

Lemma dialed_other w k p m o d q : q <> p -> nth_error (w_links (fst (spec_dial w k p m o d))) q = nth_error (w_links w) q.
Proof.
  intros N. unfold spec_dial. destruct (l_server m) as [t|]; [|reflexivity]. destruct (nth_error (w_services w) t) as [v|]; [|reflexivity].
  destruct (o_refuse _); [reflexivity|]. destruct (l_up m); [reflexivity|].
  destruct d; [cbn; rewrite set_nth_ne by congruence; reflexivity|]. destruct (negb _); cbn; rewrite set_nth_ne by congruence; reflexivity.
Qed.
Lemma others_stay l c j b : says l (CIsConnected j) = IsIt b -> ~ concerns l c j -> says (l ++ [c]) (CIsConnected j) = IsIt b.
Proof.
  intros H NC. apply connected_spec in H as (cl & p & m & E & El & ->). apply connected_spec. rewrite W_snoc.
  destruct (step_keeps _ c j cl p m E El) as (E1 & m1 & El1 & _). exists cl, p, m1. split; [assumption|]. split; [assumption|].
  assert (S1 : forall A (x : list A) y i z, nth_error x i = Some z -> nth_error (x ++ y) i = Some z).
  { intros A x y i z Q. rewrite nth_error_app1; [assumption|]. apply nth_error_Some. congruence. }
  assert (Far : forall k cl' q m0, nth_error (w_ends (W l)) k = Some (cl', q) -> nth_error (w_links (W l)) q = Some m0 ->
    ~ (k = j \/ says l (CRemoteAddr k) = Addr (Some (Some j))) -> p <> q).
  { intros k cl' q m0 Ek Em N <-. rewrite El in Em. injection Em as <-. apply N. destruct (Bool.bool_dec cl' cl) as [->|Nc].
    - left. exact (R_u _ _ (RW l) k j cl p Ek E).
    - right. apply remote_spec. exists cl', p, m. split; [assumption|]. split; [assumption|].
      assert (cl' = negb cl) as -> by (destruct cl', cl; try reflexivity; exfalso; apply Nc; reflexivity).
      pose proof (R_p _ _ (RW l) k _ p m Ek El) as Q. pose proof (R_p _ _ (RW l) j cl p m E El) as Q2. unfold far. destruct (l_server m) as [t|].
      + f_equal. rewrite negb_involutive in Q. exact (R_u _ _ (RW l) _ _ _ _ E Q).
      + destruct Q as [Q _], Q2 as [-> _]. discriminate. }
  destruct c as [user|t size|t|[t|]|k o d|k|k|k|k bb|k|t order]; cbn [spec_step concerns] in *.
  - cbn in El1. congruence.
  - destruct (nth_error (w_services (W l)) t) as [v|]; cbn in El1; [|congruence]. rewrite nth_error_map, El in El1. cbn in El1.
    injection El1 as <-. destruct (of_service t m); reflexivity.
  - destruct (nth_error (w_services (W l)) t) as [v|]; [|cbn in El1; congruence]. destruct (v_size v =? 0); cbn in El1; [congruence|].
    rewrite (S1 _ _ _ _ _ El) in El1. congruence.
  - destruct (nth_error (w_services (W l)) t) as [v|]; [|cbn in El1; congruence]. destruct (v_size v =? 0); cbn in El1; [congruence|].
    rewrite (S1 _ _ _ _ _ El) in El1. congruence.
  - cbn in El1. rewrite (S1 _ _ _ _ _ El) in El1. congruence.
  - unfold end_of in El1. destruct (nth_error (w_ends (W l)) k) as [[[] q]|] eqn:Ek; [|destruct (nth_error (w_links (W l)) q); cbn in El1; congruence|cbn in El1; congruence].
    destruct (nth_error (w_links (W l)) q) as [m0|] eqn:Eq; [|cbn in El1; congruence].
    rewrite dialed_other in El1 by (eapply Far; eauto). congruence.
  - unfold end_of in El1. destruct (nth_error (w_ends (W l)) k) as [[cl' q]|] eqn:Ek; [|cbn in El1; congruence].
    destruct (nth_error (w_links (W l)) q) as [m0|] eqn:Eq; [|cbn in El1; congruence].
    cbn in El1. assert (p <> q) by (eapply Far; eauto). rewrite set_nth_ne in El1 by congruence. congruence.
  - destruct (end_of (W l) k) as [[[]]|]; cbn in El1; congruence.
  - destruct (end_of (W l) k) as [[[]]|]; cbn in El1; congruence.
  - destruct (end_of (W l) k) as [[[]]|]; cbn in El1; congruence.
  - destruct (end_of (W l) k) as [[[]]|]; cbn in El1; congruence.
  - tauto.
Qed.

(* ---------- sockets without a server ---------- *)
Lemma offline l k l' : says l (CSocket None) = Made k ->
  let h := l ++ CSocket None :: l' in
  (forall o d, says h (CDial k o d) = Unreachable) /\ says h (CIsConnected k) = IsIt false /\
  (forall p, says h (CWrite k p) = Disconnected) /\ says h (CRead k) = ReadClosed /\
  says h (CClose k) = Nil /\ says h (CRemoteAddr k) = Addr (Some None).
Proof.
  intros H h. rewrite says_spec in H. cbn in H. injection H as <-. set (k := length (w_ends (W l))).
  assert (E0 : nth_error (w_ends (W (l ++ [CSocket None]))) k = Some (true, length (w_links (W l))) /\
    nth_error (w_links (W (l ++ [CSocket None]))) (length (w_links (W l))) = Some (MkLink None 1 false false)).
  { rewrite W_snoc. cbn. split; apply nth_error_snoc_some; auto. }
  destruct E0 as [E0 L0]. destruct (run_keeps l' _ k true _ _ E0 L0) as (E1 & m & L1 & Ns & _). cbn in Ns.
  assert (W h = fst (spec_run (W (l ++ [CSocket None])) l')) as HW.
  { unfold h. change (CSocket None :: l') with ([CSocket None] ++ l'). rewrite app_assoc. apply W_app. }
  rewrite <- HW in *.
  assert (U : l_up m = false).
  { pose proof (R_p _ _ (RW h) k true _ m E1 L1) as Q. rewrite Ns in Q. tauto. }
  assert (EE : end_of (W h) k = Some (true, length (w_links (W l)), m)) by (unfold end_of; rewrite E1, L1; reflexivity).
  repeat split; intros; rewrite says_spec; cbn [spec_step]; rewrite EE; cbn [snd]; rewrite ?U, ?Ns; try reflexivity.
  unfold spec_dial. rewrite Ns. reflexivity.
Qed.

(* ---------- panics ---------- *)
Lemma services_grow w c : length (w_services w) <= length (w_services (fst (spec_step w c))).
Proof.
  destruct c as [user|u size|u|[u|]|k o d|k|k|k|k bb|k|u order]; cbn [spec_step].
  - cbn. rewrite app_length. lia.
  - destruct (nth_error (w_services w) u); cbn; rewrite ?set_nth_length; lia.
  - destruct (nth_error (w_services w) u) as [v|]; [destruct (v_size v =? 0)|]; cbn; lia.
  - destruct (nth_error (w_services w) u) as [v|]; [destruct (v_size v =? 0)|]; cbn; lia.
  - cbn. lia.
  - destruct (end_of w k) as [[[[] p] m]|]; cbn; try lia. unfold spec_dial. destruct (l_server m) as [u|]; [|cbn; lia].
    destruct (nth_error (w_services w) u) as [v|]; [|cbn; lia]. destruct (o_refuse _), (l_up m), d; try (cbn; lia). destruct (negb _); cbn; lia.
  - destruct (end_of w k) as [[[]]|]; cbn; lia.
  - destruct (end_of w k) as [[[]]|]; cbn; lia.
  - destruct (end_of w k) as [[[]]|]; cbn; lia.
  - destruct (end_of w k) as [[[]]|]; cbn; lia.
  - destruct (end_of w k) as [[[]]|]; cbn; lia.
  - destruct (nth_error (w_services w) u) as [v|]; [destruct (v_active v)|]; cbn; rewrite ?set_nth_length; lia.
Qed.
Lemma combine_app {A B} (a1 a2 : list A) (b1 b2 : list B) : length a1 = length b1 ->
  combine (a1 ++ a2) (b1 ++ b2) = combine a1 b1 ++ combine a2 b2.
Proof. revert b1. induction a1 as [|x a1 IH]; intros [|y b1] L; try discriminate; [reflexivity|]. cbn. f_equal. apply IH. injection L as L. exact L. Qed.
Lemma size_spec l t x : nth_error (h_trans (after l)) t = Some x -> t_size x = buffer_size l t.
Proof.
  revert t x. induction l as [|c l IH] using rev_ind; intros t x E; [destruct t; discriminate|].
  assert (B : buffer_size (l ++ [c]) t = configure t (buffer_size l t) (c, says l c)).
  { unfold buffer_size. rewrite answers_snoc, combine_app by (symmetry; apply answers_length). rewrite fold_left_app. reflexivity. }
  rewrite B. clear B.
  assert (V : v_size (serv x) = t_size x) by reflexivity. rewrite <- V. clear V.
  assert (Ex : nth_error (w_services (W (l ++ [c]))) t = Some (serv x)).
  { rewrite (R_trans _ _ t (RW (l ++ [c]))), E. reflexivity. }
  clear E. generalize dependent (serv x). clear x. intros v Ex. rewrite W_snoc in Ex. rewrite says_spec.
  assert (IH' : forall t v, nth_error (w_services (W l)) t = Some v -> v_size v = buffer_size l t).
  { intros u y Ey. rewrite (R_trans _ _ u (RW l)) in Ey. destruct (nth_error (h_trans (after l)) u) as [z|] eqn:Ez; [|discriminate].
    cbn in Ey. injection Ey as <-. cbn. apply IH. assumption. }
  destruct c as [user|u size|u|[u|]|k o d|k|k|k|k bb|k|u order]; cbn [spec_step configure] in *.
  - cbn in Ex |- *. apply nth_error_snoc_some in Ex as [Ex|[-> ->]]; [auto|]. cbn. symmetry.
    assert (G : forall l, nth_error (w_services (W l)) (length (w_services (W l))) = None) by (intros; apply nth_error_None; lia).
    assert (D : forall l t, nth_error (w_services (W l)) t = None -> buffer_size l t = 0).
    { clear. induction l as [|c l IH] using rev_ind; intros t N; [reflexivity|].
      assert (B : buffer_size (l ++ [c]) t = configure t (buffer_size l t) (c, says l c)).
      { unfold buffer_size. rewrite answers_snoc, combine_app by (symmetry; apply answers_length). rewrite fold_left_app. reflexivity. }
      rewrite B, says_spec. rewrite W_snoc in N.
      assert (N0 : nth_error (w_services (W l)) t = None).
      { apply nth_error_None. apply nth_error_None in N. etransitivity; [|exact N]. apply services_grow. }
      rewrite (IH t N0). unfold configure. destruct c; try reflexivity. cbn. destruct (Nat.eqb_spec t0 t) as [->|].
      - rewrite N0. reflexivity.
      - destruct (nth_error (w_services (W l)) t0); reflexivity. }
    apply D, G.
  - destruct (nth_error (w_services (W l)) u) as [y|] eqn:Ey; cbn [fst snd w_services] in *; [|auto]. rewrite nth_set in Ex.
    destruct (Nat.eqb_spec u t) as [->|]; [|auto]. rewrite Ey in Ex. injection Ex as <-. reflexivity.
  - apply IH'. destruct (nth_error (w_services (W l)) u) as [y|]; [destruct (v_size y =? 0)|]; exact Ex.
  - apply IH'. destruct (nth_error (w_services (W l)) u) as [y|]; [destruct (v_size y =? 0)|]; exact Ex.
  - apply IH'. exact Ex.
  - apply IH'. destruct (end_of (W l) k) as [[[[] p] m]|]; try exact Ex. unfold spec_dial in Ex. destruct (l_server m) as [u|]; [|exact Ex].
    destruct (nth_error (w_services (W l)) u) as [y|]; [|exact Ex]. destruct (o_refuse _); [exact Ex|]. destruct (l_up m); [exact Ex|].
    destruct d; [exact Ex|]. destruct (negb _); exact Ex.
  - apply IH'. destruct (end_of (W l) k) as [[[]]|]; exact Ex.
  - apply IH'. destruct (end_of (W l) k) as [[[]]|]; exact Ex.
  - apply IH'. destruct (end_of (W l) k) as [[[]]|]; exact Ex.
  - apply IH'. destruct (end_of (W l) k) as [[[]]|]; exact Ex.
  - apply IH'. destruct (end_of (W l) k) as [[[]]|]; exact Ex.
  - destruct (nth_error (w_services (W l)) u) as [y|] eqn:Ey; [|auto]. destruct (v_active y); [|auto]. cbn [fst w_services] in Ex.
    rewrite nth_set in Ex. destruct (Nat.eqb_spec u t) as [->|]; [|auto]. rewrite Ey in Ex. injection Ex as <-. cbn. auto.
Qed.

Lemma panics_exactly l c : known l c ->
  (says l c = Panics <-> exists t, (c = CPair t \/ c = CSocket (Some t)) /\ buffer_size l t = 0).
Proof.
  intros K. assert (T : forall t, t < length (h_trans (after l)) -> exists x, nth_error (h_trans (after l)) t = Some x /\
    nth_error (w_services (W l)) t = Some (serv x) /\ t_size x = buffer_size l t).
  { intros t L. destruct (nth_error (h_trans (after l)) t) as [x|] eqn:E; [|apply nth_error_None in E; lia].
    exists x. split; [reflexivity|]. split; [rewrite (R_trans _ _ t (RW l)), E; reflexivity|apply size_spec; assumption]. }
  assert (S1 : forall k, k < length (h_socks (after l)) -> exists cl p m, end_of (W l) k = Some (cl, p, m) /\
    nth_error (w_ends (W l)) k = Some (cl, p) /\ nth_error (w_links (W l)) p = Some m).
  { intros k L. pose proof (R_end _ _ k (RW l)) as Q. destruct (end_of (W l) k) as [[[cl p] m]|].
    - destruct Q as (A & B & _). eauto 10.
    - destruct Q as [Q _]. apply nth_error_None in Q. lia. }
  rewrite says_spec. destruct c as [user|t size|t|[t|]|k o d|k|k|k|k bb|k|t order]; cbn [known spec_step] in *;
    try (destruct (T t K) as (x & Ex & Es & Sz); rewrite Es; cbn [v_size v_active serv]);
    try (destruct (S1 k K) as (cl & p & m & EE & E & El); rewrite EE);
    try (split; [discriminate|intros (u & [D|D] & _); discriminate D]).
  - rewrite Sz. destruct (Nat.eqb_spec (buffer_size l t) 0) as [Z|Z]; cbn.
    + split; [intros _; exists t; auto|reflexivity].
    + split; [discriminate|]. intros (u & [[= <-]|D] & ?); [contradiction|discriminate].
  - rewrite Sz. destruct (Nat.eqb_spec (buffer_size l t) 0) as [Z|Z]; cbn.
    + split; [intros _; exists t; auto|reflexivity].
    + split; [discriminate|]. intros (u & [D|[= <-]] & ?); [discriminate|contradiction].
  - split; [|intros (u & [D|D] & _); discriminate D]. destruct cl; [|discriminate]. unfold spec_dial.
    destruct (l_server m) as [t|] eqn:Es; [|discriminate]. destruct (R_v _ _ (RW l) p m t El Es) as (x & Ex & _).
    rewrite (R_trans _ _ t (RW l)), Ex. cbn [option_map]. destruct (o_refuse _); [discriminate|]. destruct (l_up m); [discriminate|].
    destruct d; [discriminate|]. destruct (negb _); discriminate.
  - split; [|intros (u & [D|D] & _); discriminate D]. cbn. destruct (l_up m); discriminate.
  - split; [|intros (u & [D|D] & _); discriminate D]. cbn. destruct (l_up m); discriminate.
  - split; [|intros (u & [D|D] & _); discriminate D]. destruct (t_active x); discriminate.
Qed.

(* ---------- what the server is handed ---------- *)
Lemma Forall2_impl {A B} (P Q : A -> B -> Prop) l r : (forall a b, P a b -> Q a b) -> Forall2 P l r -> Forall2 Q l r.
Proof. intros H F. induction F; constructor; auto. Qed.
Lemma dials_app l1 l2 r1 r2 : length l1 = length r1 -> dials (l1 ++ l2) (r1 ++ r2) = dials l1 r1 ++ dials l2 r2.
Proof.
  revert r1. induction l1 as [|c l1 IH]; intros [|a r1] L; try discriminate; [reflexivity|]. cbn. rewrite IH by (injection L as L; exact L).
  apply app_assoc.
Qed.
Lemma hook_stays l c t x : nth_error (h_trans (after l)) t = Some x -> has_hook (l ++ [c]) t = has_hook l t.
Proof.
  intros E. assert (G : forall l, has_hook l t = match nth_error (w_services (W l)) t with Some v => v_user v | None => false end).
  { intros l0. unfold has_hook. rewrite (R_trans _ _ t (RW l0)). destruct (nth_error (h_trans (after l0)) t); reflexivity. }
  rewrite !G. rewrite W_snoc. assert (Ev : nth_error (w_services (W l)) t = Some (serv x)) by (rewrite (R_trans _ _ t (RW l)), E; reflexivity).
  destruct c as [user|u size|u|[u|]|k o d|k|k|k|k bb|k|u order]; cbn [spec_step].
  - cbn. rewrite nth_error_app1 by (apply nth_error_Some; congruence). reflexivity.
  - destruct (nth_error (w_services (W l)) u) as [y|] eqn:Ey; [|reflexivity]. cbn [fst w_services]. rewrite nth_set.
    destruct (Nat.eqb_spec u t) as [->|]; [|reflexivity]. rewrite Ev in *. injection Ey as <-. reflexivity.
  - destruct (nth_error (w_services (W l)) u) as [y|]; [destruct (v_size y =? 0)|]; reflexivity.
  - destruct (nth_error (w_services (W l)) u) as [y|]; [destruct (v_size y =? 0)|]; reflexivity.
  - reflexivity.
  - destruct (end_of (W l) k) as [[[[] p] m]|]; try reflexivity. unfold spec_dial. destruct (l_server m) as [u|]; [|reflexivity].
    destruct (nth_error (w_services (W l)) u) as [y|]; [|reflexivity]. destruct (o_refuse _); [reflexivity|]. destruct (l_up m); [reflexivity|].
    destruct d; [reflexivity|]. destruct (negb _); reflexivity.
  - destruct (end_of (W l) k) as [[[]]|]; reflexivity.
  - destruct (end_of (W l) k) as [[[]]|]; reflexivity.
  - destruct (end_of (W l) k) as [[[]]|]; reflexivity.
  - destruct (end_of (W l) k) as [[[]]|]; reflexivity.
  - destruct (end_of (W l) k) as [[[]]|]; reflexivity.
  - destruct (nth_error (w_services (W l)) u) as [y|] eqn:Ey; [|reflexivity]. destruct (v_active y); [|reflexivity]. cbn [fst w_services]. rewrite nth_set.
    destruct (Nat.eqb_spec u t) as [->|]; [|reflexivity]. rewrite Ev in *. injection Ey as <-. reflexivity.
Qed.
Definition matches (l : list call) (e : nat * options * nat) (d : nat * options) : Prop :=
  let '(t, o, s) := e in let '(k, o') := d in
  entangled l s k /\ o = (if has_hook l t then o' else zero_options) /\ t < length (h_trans (after l)).
Lemma matches_stays l c e d : matches l e d -> matches (l ++ [c]) e d.
Proof.
  destruct e as [[t o] s], d as [k o']. cbn. intros ((A & B) & -> & L). split; [|split].
  - split; apply address_stays; assumption.
  - destruct (nth_error (h_trans (after l)) t) as [x|] eqn:E; [|apply nth_error_None in E; lia].
    rewrite (hook_stays l c t x E). reflexivity.
  - assert (X : nth_error (h_trans (after l)) t <> None) by (apply nth_error_Some; assumption).
    assert (Y : nth_error (w_services (W l)) t <> None).
    { rewrite (R_trans _ _ t (RW l)). destruct (nth_error (h_trans (after l)) t); [discriminate|contradiction]. }
    apply nth_error_Some in Y. apply nth_error_Some.
    assert (Z : nth_error (w_services (W (l ++ [c]))) t <> None).
    { apply nth_error_Some. rewrite W_snoc. eapply Nat.lt_le_trans; [exact Y|]. apply services_grow. }
    rewrite (R_trans _ _ t (RW (l ++ [c]))) in Z. destruct (nth_error (h_trans (after (l ++ [c]))) t); [discriminate|contradiction].
Qed.
Lemma handed l : Forall2 (matches l) (h_new (after l)) (dials l (answers l)).
Proof.
  induction l as [|c l IH] using rev_ind; [constructor|].
  rewrite answers_snoc, dials_app by (symmetry; apply answers_length).
  assert (G : forall e, h_new (after (l ++ [c])) = h_new (after l) ++ e -> Forall2 (matches (l ++ [c])) e (dialed c (says l c)) ->
    Forall2 (matches (l ++ [c])) (h_new (after (l ++ [c]))) (dials l (answers l) ++ dials [c] [says l c])).
  { intros e -> F. apply Forall2_app; [|cbn; rewrite app_nil_r; exact F]. eapply Forall2_impl; [|exact IH]. intros a b. apply matches_stays. }
  rewrite (R_n _ _ (RW (l ++ [c]))), (R_n _ _ (RW l)), W_snoc in G. rewrite (R_n _ _ (RW (l ++ [c]))), W_snoc.
  rewrite says_spec in *.
  destruct c as [user|u size|u|[u|]|k o d|k|k|k|k bb|k|u order]; cbn [spec_step] in *.
  6: { pose proof (R_end _ _ k (RW l)) as Q. destruct (end_of (W l) k) as [[[[] p] m]|] eqn:EE;
         try (apply (G []); [cbn; symmetry; apply app_nil_r|constructor]).
       destruct Q as (E & El & _). unfold spec_dial in *. destruct (l_server m) as [t|] eqn:Es;
         [|apply (G []); [cbn; symmetry; apply app_nil_r|constructor]].
       destruct (R_v _ _ (RW l) p m t El Es) as (x & Ex & _). rewrite (R_trans _ _ t (RW l)), Ex in *. cbn [option_map] in *.
       remember (if v_user (serv x) then o else zero_options) as oo eqn:Oo.
       destruct (o_refuse oo); [apply (G []); [cbn; symmetry; apply app_nil_r|constructor]|].
       destruct (l_up m); [apply (G []); [cbn; symmetry; apply app_nil_r|constructor]|].
       destruct d; [apply (G []); [cbn; symmetry; apply app_nil_r|constructor]|].
       destruct (negb _); [apply (G []); [cbn; symmetry; apply app_nil_r|constructor]|].
       apply (G [(t, oo, peer true k)]); [reflexivity|]. constructor; [|constructor].
       apply (matches_stays l). cbn. split; [|split].
       - assert (A : says l (CRemoteAddr k) = Addr (Some (Some (peer true k)))).
         { apply remote_spec. exists true, p, m. unfold far. rewrite Es. auto. }
         split; [|exact A]. apply ends_agree in A. tauto.
       - unfold has_hook. rewrite Ex, Oo. reflexivity.
       - apply nth_error_Some. congruence. }
  all: apply (G []); [|constructor]; rewrite app_nil_r.
  - reflexivity.
  - destruct (nth_error (w_services (W l)) u); reflexivity.
  - destruct (nth_error (w_services (W l)) u) as [y|]; [destruct (v_size y =? 0)|]; reflexivity.
  - destruct (nth_error (w_services (W l)) u) as [y|]; [destruct (v_size y =? 0)|]; reflexivity.
  - reflexivity.
  - destruct (end_of (W l) k) as [[[]]|]; reflexivity.
  - destruct (end_of (W l) k) as [[[]]|]; reflexivity.
  - destruct (end_of (W l) k) as [[[]]|]; reflexivity.
  - destruct (end_of (W l) k) as [[[]]|]; reflexivity.
  - destruct (end_of (W l) k) as [[[]]|]; reflexivity.
  - destruct (nth_error (w_services (W l)) u) as [y|]; [destruct (v_active y)|]; reflexivity.
Qed.
Lemma handed_end l : Forall2 (fun e d => entangled l (snd e) (fst d) /\
    snd (fst e) = (if has_hook l (fst (fst e)) then snd d else zero_options)) (h_new (after l)) (dials l (answers l)).
Proof. eapply Forall2_impl; [|apply handed]. intros [[t o] s] [k o']. cbn. tauto. Qed.

(* ---------- connections ---------- *)
Lemma says_remote l k a : says l (CRemoteAddr k) = Addr a <-> RemoteAddr (after l) k = Some a.
Proof.
  unfold says, step. cbn. destruct (RemoteAddr (after l) k) as [b|]; cbn; split; try discriminate; intros [= ->]; reflexivity.
Qed.
Lemma connection_of l l' s k o now : entangled l s k ->
  exists c, newConnection (after (l ++ l')) (Some s) o now = Some c /\ cn_addr c = Some (Some k) /\
    cn_options c = o /\ cn_active c = true /\ cn_creation c = now.
Proof.
  intros [A _]. apply (address_stays l l') in A. apply says_remote in A. unfold newConnection. rewrite A.
  eexists. split; [reflexivity|]. auto.
Qed.
Lemma info_find (m : list (Z * nat)) key v : NoDup (map fst m) ->
  ((let? (_, v) := find (fun e => (fst e =? key)%Z) m in Some v) = Some v <-> In (key, v) m).
Proof.
  induction m as [|[a b] m IH]; cbn [find map In fst]; intros N; [split; [discriminate|intros []]|].
  inversion N as [|? ? Na N' ]; subst. destruct (Z.eqb_spec a key) as [->|D].
  - split; [intros [= ->]; auto|]. intros [[= ->]|H]; [reflexivity|]. exfalso. apply Na. apply (in_map fst) in H. exact H.
  - rewrite (IH N'). split; [auto|]. intros [[= ? ?]|H]; [contradiction|exact H].
Qed.
Lemma info_spec c key v : (forall m, o_info (cn_options c) = Some m -> NoDup (map fst m)) ->
  (Info c key = Some v <-> exists m, o_info (cn_options c) = Some m /\ In (key, v) m).
Proof.
  intros N. unfold Info. destruct (o_info (cn_options c)) as [m|]; [|split; [discriminate|intros (m & ? & _); discriminate]].
  rewrite (info_find m key v (N m eq_refl)). split; [eauto|]. intros (m' & [= <-] & H). exact H.
Qed.

Lemma close_effect l k : k < length (h_socks (after l)) -> says l (CClose k) = Nil /\ says (l ++ [CClose k]) (CIsConnected k) = IsIt false.
Proof.
  intros K. pose proof (R_end _ _ k (RW l)) as Q. destruct (end_of (W l) k) as [[[cl p] m]|] eqn:EE.
  - destruct Q as (E & El & _). split; [rewrite says_spec; cbn [spec_step]; rewrite EE; reflexivity|].
    apply connected_spec. rewrite W_snoc. cbn [spec_step]. rewrite EE. cbn [fst]. exists cl, p, (turn false false m).
    split; [assumption|]. split; [|reflexivity]. unfold with_link. cbn [w_links]. exact (set_nth_eq _ _ _ _ El).
  - destruct Q as [Q _]. apply nth_error_None in Q. lia.
Qed.
Lemma dial_effect l k o d : says l (CDial k o d) = Nil -> d = false /\
  says l (CIsConnected k) = IsIt false /\ says (l ++ [CDial k o d]) (CIsConnected k) = IsIt true.
Proof.
  rewrite says_spec. cbn [spec_step]. pose proof (R_end _ _ k (RW l)) as Q. destruct (end_of (W l) k) as [[[[] p] m]|] eqn:EE; try discriminate.
  destruct Q as (E & El & _). intros D. assert (D' := D). unfold spec_dial in D.
  destruct (l_server m) as [t|]; [|discriminate]. destruct (nth_error (w_services (W l)) t) as [v|]; [|discriminate].
  destruct (o_refuse _) eqn:Rf; [discriminate|]. destruct (l_up m) eqn:U; [discriminate|]. destruct d; [discriminate|]. split; [reflexivity|].
  destruct (negb (v_active v)) eqn:V; [discriminate|].
  split; [apply connected_spec; exists true, p, m; auto|]. apply connected_spec. rewrite W_snoc. cbn [spec_step]. rewrite EE.
  exists true, p, (turn true true m). unfold spec_dial in *.
  destruct (l_server m) as [t'|]; [|discriminate]. destruct (nth_error (w_services (W l)) t') as [v'|]; [|discriminate].
  destruct (o_refuse (if v_user v' then o else zero_options)); [discriminate|]. rewrite U in *. destruct (negb (v_active v')); [discriminate|].
  cbn [fst with_link w_ends w_links w_services w_new]. split; [assumption|]. split; [exact (set_nth_eq _ _ _ _ El)|reflexivity].
Qed.

Lemma connection_without : forall l o now, exists c, newConnection (after l) None o now = Some c /\
  cn_options c = o /\ cn_active c = false /\ cn_creation c = now /\ cn_addr c = None.
Proof. intros. eexists. split; [reflexivity|]. auto. Qed.
