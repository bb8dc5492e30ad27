(* Sessions: counting, destruction, crashes, progress *)
From Coq Require Import List Arith NArith ZArith Lia Bool.
From Verif Require Import BaseBytes BaseConc ModelMessage ModelWrite ModelHandle ModelSession SpecSession ProofSession ProofSession2.
Import ListNotations.
Open Scope nat_scope.

Local Arguments Nat.ltb : simpl never.
Local Arguments Nat.eqb : simpl never.
Local Arguments N.ltb : simpl never.
Local Arguments N.eqb : simpl never.
Local Arguments Z.leb : simpl never.
Local Arguments Z.eqb : simpl never.
Local Arguments Z.of_nat : simpl never.
Local Arguments register : simpl never.
Local Arguments deregister : simpl never.
Local Arguments map_set : simpl never.
Local Arguments map_del : simpl never.
Local Arguments map_get : simpl never.

(* ---------- C30, C31 ---------- *)
Lemma session_limit f ok s k : sreach f ok s -> f_max f <> 0%N -> (sessionConnectionsNum (reg s) k <= Z.of_N (f_max f))%Z.
Proof.
  intros R M. apply reg_wf in R. unfold sessionConnectionsNum. destruct (lookup (reg s) k) as [l|] eqn:E; [|lia].
  destruct (wf_sets _ _ R _ _ E) as (_ & _ & H). specialize (H M). lia.
Qed.
Lemma registry_counts f ok s : sreach f ok s ->
  (exists ks, NoDup ks /\ activeSessionsNum (reg s) = length ks /\ forall k, In k ks <-> exists c, listed s c k) /\
  forall k, exists l, NoDup l /\ (forall c, In c l <-> listed s c k) /\
    sessionConnections (reg s) k = (if length l =? 0 then None else Some l) /\
    sessionConnectionsNum (reg s) k = if length l =? 0 then (-1)%Z else Z.of_nat (length l).
Proof.
  intros R. apply reg_wf in R. destruct R as [K S]. split.
  - exists (map fst (reg s)). split; [exact K|]. split; [unfold activeSessionsNum; rewrite map_length; reflexivity|].
    intros k. split.
    + intros I. destruct (lookup (reg s) k) as [l|] eqn:E; [|apply (map_get_none _ beqb) in E; contradiction].
      destruct (S _ _ E) as (_ & Ne & _). destruct l as [|c l]; [congruence|]. exists c. exists (c :: l). split; [exact E|left; reflexivity].
    + intros (c & l & E & _). unfold sessionConnections in E. apply (map_get_In _ beqb) in E. apply (in_map fst) in E. exact E.
  - intros k. unfold sessionConnectionsNum, sessionConnections. destruct (lookup (reg s) k) as [l|] eqn:E.
    + destruct (S _ _ E) as (Nd & Ne & _). exists l. split; [exact Nd|]. split.
      * intros c. split; [intros I; exists l; auto|]. intros (l' & E' & I). unfold sessionConnections in E'. congruence.
      * destruct (Nat.eqb_spec (length l) 0) as [Z|Z]; [destruct l; [congruence|discriminate]|auto].
    + exists []. split; [constructor|]. split; [|split; reflexivity]. intros c. split; [intros []|]. intros (l' & E' & _). unfold sessionConnections in E'. congruence.
Qed.

Lemma deregister_exact f ok s c k : sreach f ok s ->
  ((forall c', ~ listed s c' k) -> deregister (reg s) k c = (reg s, (-1)%Z)) /\
  (listed s c k -> forall r n, deregister (reg s) k c = (r, n) -> sessionConnectionsNum (reg s) k = (n + 1)%Z /\
     sessionConnectionsNum r k = (if (n =? 0)%Z then (-1)%Z else n) /\
     forall k', k' <> k -> sessionConnections r k' = sessionConnections (reg s) k').
Proof.
  intros R. pose proof (reg_wf _ _ _ R) as W. split.
  - intros N. unfold deregister. destruct (lookup (reg s) k) as [l|] eqn:E; [|reflexivity]. exfalso.
    destruct (wf_sets _ _ W _ _ E) as (_ & Ne & _). destruct l as [|x l]; [congruence|]. apply (N x). exists (x :: l). split; [exact E|left; reflexivity].
  - intros L r n D. destruct (deregister_count _ _ _ _ W L) as [A B]. rewrite D in A, B. cbn [fst snd] in A, B. split; [exact A|]. split; [exact B|].
    intros k' Nk. unfold deregister in D. unfold sessionConnections. destruct (lookup (reg s) k) as [l|]; [|injection D as <- <-; reflexivity].
    destruct (length l <? 2); injection D as <- <-; [rewrite (map_get_del _ beqb)|rewrite (map_get_set _ beqb)]; destruct (beqb k k'); congruence.
Qed.

(* ---------- C32 ---------- *)
Lemma idle_cleared s c i t : idle s c -> nth_error (s_ts s) i = Some t -> cleared c t = false.
Proof.
  intros I N. destruct (cleared c t) eqn:E; [|reflexivity].
  assert (T : touch c t = true) by (apply pred_touch; auto). unfold touch in T. apply nth_error_In in N. apply I in N.
  apply orb_true_iff in T as [T|T]; [apply holds_busy in T; congruence|]. apply andb_true_iff in T. destruct T. congruence.
Qed.
Lemma listed_sound f ok s c k : at_least f ok -> sreach f ok s -> listed s c k -> has_key s c k.
Proof. intros AL R H. apply (ag_sound _ (agreement _ _ _ AL R) c k H). Qed.
Lemma listed_iff f ok s c k : at_least f ok -> sreach f ok s -> idle s c -> (listed s c k <-> has_key s c k).
Proof.
  intros AL R I. split; [eapply listed_sound; eauto|]. intros (x & X & <-).
  destruct (ag_listed _ (agreement _ _ _ AL R) c x X) as [H|(i & t & N & H)]; [exact H|].
  rewrite (idle_cleared s c i t I N) in H. discriminate.
Qed.
Lemma quiet_idle s c : quiet s -> idle s c.
Proof.
  intros Q t I. apply Q in I. unfold finished, busy in *.
  destruct t as [c' info s'|c' s'|c' m s'|c' m s'|c' s'|k s']; destruct s'; try discriminate; reflexivity.
Qed.
Lemma held_counts f ok s : at_least f ok -> sreach f ok s -> quiet s ->
  (exists ks, NoDup ks /\ activeSessionsNum (reg s) = length ks /\ forall k, In k ks <-> exists c, has_key s c k) /\
  forall k, exists l, NoDup l /\ (forall c, In c l <-> has_key s c k) /\
    sessionConnections (reg s) k = (if length l =? 0 then None else Some l) /\
    sessionConnectionsNum (reg s) k = if length l =? 0 then (-1)%Z else Z.of_nat (length l).
Proof.
  intros AL R Q. assert (E : forall c k, listed s c k <-> has_key s c k) by (intros; eapply listed_iff; eauto; apply quiet_idle, Q).
  destruct (registry_counts f ok s R) as [(ks & N & L & H) H2]. split.
  - exists ks. split; [exact N|]. split; [exact L|]. intros k. rewrite H. split; intros [c X]; exists c; apply E, X.
  - intros k. destruct (H2 k) as (l & N2 & I & C). exists l. split; [exact N2|]. split; [|exact C]. intros c. rewrite I. apply E.
Qed.

(* ---------- C33 ---------- *)
Lemma app_one {A} (l : list A) : l <> l ++ [] -> False.
Proof. rewrite app_nil_r. auto. Qed.
Lemma app_self {A} (l : list A) x : l = l ++ [x] -> False.
Proof. intros H. apply (f_equal (@length A)) in H. rewrite app_length in H. cbn in H. lia. Qed.
Lemma app_last_inj {A} (l : list A) x y : l ++ [x] = l ++ [y] -> x = y.
Proof. intros H. apply app_inv_head in H. congruence. Qed.
Definition is_unlink (t : thread) : bool := match t with TUnlink _ _ => true | _ => false end.
Lemma leave_effect f i g t ch g' t' j c k d n : tcase f i g t ch g' t' -> g_log g' = g_log g ++ [LLeave j c k d n] ->
  j = i /\ d = negb (is_unlink t) /\ touch c t = true /\ (forall c, cleared c t = false) /\
  exists x, g_sess g c = Some x /\ x_key x = k /\ g_sess g' = g_sess g /\ (g_reg g', n) = deregister (g_reg g) k c.
Proof.
  intros H Lg.
  tcases H; cbn in Lg; try (exfalso; apply (app_self _ _ Lg)); apply app_last_inj in Lg; try discriminate Lg; injection Lg as <- <- <- <- <-;
    (split; [reflexivity|]; split; [reflexivity|]; split; [pcs|]; split; [pcs|]; exists x; cbn; auto).
Qed.
Lemma leave_exact f ok s i ch s' j c k d n : at_least f ok -> sreach f ok s ->
  sstep f s (EvStep i ch) = Some s' -> slog s' = slog s ++ [LLeave j c k d n] ->
  has_key s c k /\ listed s c k /\
  (forall c' k', listed s' c' k' <-> listed s c' k' /\ ~ (c' = c /\ k' = k)) /\
  sessionConnectionsNum (reg s) k = (n + 1)%Z /\
  (n = 0%Z <-> forall c', ~ listed s' c' k) /\
  (d = false <-> exists c0 u, nth_error (s_ts s) i = Some (TUnlink c0 u)).
Proof.
  intros AL R H Lg. apply step_inv in H as [Cr [(t & B & ->)|(i' & ch' & t & g' & t' & E & N & T & ->)]].
  { exfalso. cbn in Lg. apply (app_self _ _ Lg). }
  injection E as <- <-. cbn in Lg. apply tstep_inv in T. pose proof (reg_wf _ _ _ R) as W.
  destruct (leave_effect _ _ _ _ _ _ _ _ _ _ _ _ T Lg) as (-> & Ed & Tc & Cl & x & X & <- & Es & D).
  pose proof (agreement _ _ _ AL R) as A.
  assert (In0 : inreg (reg s) c (x_key x)).
  { destruct (ag_listed _ A c x X) as [I|(j & u & Nj & Hc)]; [exact I|]. exfalso. destruct (Nat.eq_dec i j) as [<-|Dij].
    - rewrite N in Nj. injection Nj as <-. rewrite Cl in Hc. discriminate.
    - assert (O : orderly f s) by (destruct R; [apply orderly_new|apply AL; assumption]).
      refine (touch_alone s i j t u c (locks _ _ _ R) _ Dij N Nj Tc _); [apply O|]. apply pred_touch. auto. }
  pose proof (fun c' k' => deregister_in _ _ _ _ c' k' W In0) as Dr.
  destruct (deregister_count _ _ _ _ W In0) as [Cn Cn'].
  apply (f_equal fst) in D as D1. apply (f_equal snd) in D as D2. cbn [fst snd] in D1, D2.
  rewrite <- D1 in Dr, Cn'. rewrite <- D2 in Cn, Cn'.
  split; [exists x; auto|]. split; [exact In0|]. split; [exact Dr|]. split; [exact Cn|]. split.
  - assert (W' : wf (f_max f) (g_reg g')) by (rewrite D1; apply deregister_wf, W). split.
    + intros ->. rewrite Z.eqb_refl in Cn'. intros c' (l & El & I). unfold sessionConnectionsNum in Cn'. cbn in El. unfold sessionConnections in El. rewrite El in Cn'. lia.
    + intros No. destruct (Z.eqb_spec n 0) as [->|Nz]; [reflexivity|]. exfalso. unfold sessionConnectionsNum in Cn'.
      destruct (lookup (g_reg g') (x_key x)) as [l|] eqn:El; [|cbn in Cn'].
      * destruct (wf_sets _ _ W' _ _ El) as (_ & Ne & _). destruct l as [|c1 l]; [congruence|]. apply (No c1). exists (c1 :: l). split; [exact El|left; reflexivity].
      * assert (sessionConnectionsNum (reg s) (x_key x) = 0%Z) by lia. unfold sessionConnectionsNum in H.
        destruct In0 as (l & E0 & I). rewrite E0 in H. destruct l; [destruct I|cbn in H; lia].
  - rewrite Ed, N. destruct t; cbn; split; intros H; try discriminate; try (destruct H as (? & ? & H); discriminate); eauto.
Qed.

(* registry changes only by joining and leaving *)
Lemma join_exact f ok s i ch s' j c k : sreach f ok s ->
  sstep f s (EvStep i ch) = Some s' -> slog s' = slog s ++ [LJoin j c k] ->
  has_key s c k /\ (forall c' k', listed s' c' k' <-> (c' = c /\ k' = k) \/ listed s c' k').
Proof.
  intros R H Lg. apply step_inv in H as [Cr [(t & B & ->)|(i' & ch' & t & g' & t' & E & N & T & ->)]].
  { exfalso. cbn in Lg. apply (app_self _ _ Lg). }
  injection E as <- <-. cbn in Lg. apply tstep_inv in T.
  tcases T; cbn in Lg; try (exfalso; apply (app_self _ _ Lg)); apply app_last_inj in Lg; try discriminate Lg; injection Lg as <- <- <-.
  all: split; [exists x; auto|]; intros c' k'; cbn;
    match goal with X : register ?m ?r ?k ?c0 = _ |- _ =>
      pose proof (register_in m r k c0 c' k') as Y; rewrite X in Y; cbn in Y; apply Y; reflexivity end.
Qed.
Lemma other_steps f s e s' : sstep f s e = Some s' ->
  (forall i c k, slog s' <> slog s ++ [LJoin i c k]) -> (forall i c k d n, slog s' <> slog s ++ [LLeave i c k d n]) ->
  reg s' = reg s.
Proof.
  intros H J Lv. apply step_inv in H as [Cr [(t & B & ->)|(i' & ch' & t & g' & t' & E & N & T & ->)]]; [reflexivity|].
  apply tstep_inv in T. cbn in *.
  tcases T; cbn in *; try reflexivity; try (exfalso; eapply J; reflexivity); try (exfalso; eapply Lv; reflexivity).
  all: match goal with X : register ?m ?r ?k ?c0 = (_, false) |- _ =>
      pose proof (register_fails m r k c0) as Y; rewrite X in Y; cbn in Y; apply Y; reflexivity end.
Qed.

(* counting *)
Lemma count_change {A} (p p' : A -> bool) l i t t' : nth_error l i = Some t ->
  (forall j u, i <> j -> nth_error l j = Some u -> p' u = p u) ->
  count p' (set_nth l i t') + b2i (p t) = count p l + b2i (p' t').
Proof.
  intros N H. destruct (set_nth_split l i t N) as (l1 & l2 & -> & L & ->). rewrite !count_app. cbn.
  rewrite (count_ext p' p l1), (count_ext p' p l2); [lia| |].
  - intros x I. apply In_nth_error in I as [j I]. apply (H (length l1 + 1 + j) x); [lia|].
    rewrite nth_error_app2 by lia. replace (length l1 + 1 + j - length l1) with (S j) by lia. exact I.
  - intros x I. apply In_nth_error in I as [j I]. apply (H j x).
    + assert (j < length l1) by (apply nth_error_Some; congruence). lia.
    + rewrite nth_error_app1; [exact I|]. apply nth_error_Some. congruence.
Qed.
Lemma ending_touch c t : ending t = Some c -> touch c t = true.
Proof.
  unfold ending, touch. destruct t as [c' info s|c' s|c' m s|c' m s|c' s|k s]; split_pc; cbn; try discriminate;
    intros [= ->]; rewrite ?Nat.eqb_refl; reflexivity.
Qed.
Lemma sess_touch f i g t ch g' t' c : tcase f i g t ch g' t' -> g_sess g' c = g_sess g c \/ touch c t = true.
Proof.
  intros H. tcases H; cbn; auto; unfold upd; destruct (Nat.eqb_spec c c0) as [->|D] || destruct (Nat.eqb_spec c c1) as [->|D]; auto; right; pcs.
Qed.
Lemma destroy_effect f i g t ch g' t' k : tcase f i g t ch g' t' ->
  count (destroys k) (g_log g') + b2i (ends (MkSys g' []) k t') + count (last_leaves k) (g_log g) =
  count (destroys k) (g_log g) + b2i (ends (MkSys g []) k t) + count (last_leaves k) (g_log g').
Proof.
  intros H. tcases H; cbn [qdone] in *; try discriminate; cbn; unfold ends, upd; cbn; rewrite ?count_snoc; cbn;
    rewrite ?Nat.eqb_refl; try lia;
    repeat match goal with X : g_sess _ _ = _ |- _ => rewrite X in * end; cbn; try lia;
    try (match goal with X : ?n <> 0%Z \/ _ |- _ => destruct X; [|discriminate] end);
    try (destruct (bytes_eqb _ _); cbn; try lia);
    try (match goal with |- context [(?n =? 0)%Z] => destruct (Z.eqb_spec n 0); cbn; try lia; contradiction end).
Qed.
Lemma destroy_count f ok s k : at_least f ok -> sreach f ok s ->
  count (destroys k) (slog s) + count (ends s k) (s_ts s) = count (last_leaves k) (slog s).
Proof.
  intros AL. revert s. apply reach_ind.
  - reflexivity.
  - intros s e t _ IH B _. cbn [s_ts s_srv]. rewrite count_snoc.
    replace (count (ends (MkSys (s_srv s) (s_ts s ++ [t])) k) (s_ts s)) with (count (ends s k) (s_ts s)) by (apply count_ext; reflexivity).
    replace (ends (MkSys (s_srv s) (s_ts s ++ [t])) k t) with false; [cbn; lia|].
    destruct e; cbn in B; try discriminate; injection B as <-; reflexivity.
  - intros s i ch t g' t' R IH _ N H _. apply tstep_inv in H. cbn [s_ts s_srv].
    pose proof (destroy_effect f i _ t ch g' t' k H) as E.
    assert (O : orderly f s) by (destruct R; [apply orderly_new|apply AL; assumption]).
    assert (C := count_change (ends s k) (ends (MkSys g' (set_nth (s_ts s) i t')) k) (s_ts s) i t t' N).
    unfold ends in *. cbn [s_srv s_ts] in *. rewrite <- IH in E. lapply C; [clear C; intros C; lia|].
    intros j u D Nj. destruct (ending u) as [c|] eqn:Eu; [|reflexivity].
    destruct (sess_touch _ _ _ _ _ _ _ c H) as [->|T]; [reflexivity|].
    exfalso. eapply (touch_alone s i j t u c); eauto; [eapply locks; eauto|apply O|apply ending_touch, Eu].
Qed.
Lemma quiet_ends s k : quiet s -> count (ends s k) (s_ts s) = 0.
Proof.
  intros Q. apply count_zero. intros t I. apply Q in I. unfold ends, finished, ending in *.
  destruct t as [c' info s'|c' s'|c' m s'|c' m s'|c' s'|k' s']; destruct s'; try discriminate; reflexivity.
Qed.
Lemma destroy_quiet f ok s k : at_least f ok -> sreach f ok s -> quiet s ->
  count (destroys k) (slog s) = count (last_leaves k) (slog s).
Proof. intros AL R Q. pose proof (destroy_count f ok s k AL R) as H. rewrite quiet_ends in H by exact Q. lia. Qed.
