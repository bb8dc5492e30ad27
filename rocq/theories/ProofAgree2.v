(* CreateSession and CloseSession: a thread of ModelSession that runs alone does what ModelFault says. *)
From Coq Require Import Strings.String.
From Coq Require Import List Arith NArith ZArith Bool Lia.
From Verif Require Import BaseBytes ModelMessage ModelErrors ModelWrite SpecWrite SpecReport ProofReport SpecLog SpecAgree ProofAgree.
From Verif Require ModelSession ModelReport ModelLog ModelFault.
Import ListNotations.
Open Scope list_scope.
Open Scope nat_scope.

Lemma upd_same {A} (f : nat -> A) i x : ModelSession.upd f i x i = x.
Proof. unfold ModelSession.upd. rewrite Nat.eqb_refl. reflexivity. Qed.

Lemma created_some broken errs b : ModelReport.WriteMsgNotifySessionCreated broken (reporter errs) [] b <> None.
Proof.
  intros H. pose proof (tseq_reporter broken errs [[MsgNotifySessionCreated]; b] []) as T.
  change (ModelReport.WriteMsgNotifySessionCreated broken (reporter errs) [] b = Some ([] ++ fst (run_calls (failing errs) 0 [[MsgNotifySessionCreated]; b]),
    outcome broken errs 0 [[MsgNotifySessionCreated]; b])) in T. congruence.
Qed.
Lemma closed_some broken errs : ModelReport.WriteMsgNotifySessionClosed broken (reporter errs) [] <> None.
Proof.
  intros H. pose proof (tseq_reporter broken errs [[MsgNotifySessionClosed]] []) as T.
  change (ModelReport.WriteMsgNotifySessionClosed broken (reporter errs) [] = Some ([] ++ fst (run_calls (failing errs) 0 [[MsgNotifySessionClosed]]),
    outcome broken errs 0 [[MsgNotifySessionClosed]])) in T. congruence.
Qed.

(* what one call of CreateSession comes to in both models *)
Section Create.
Variables (broken : err -> bytes) (f : ModelSession.config) (i c : nat) (info : N) (connected : bool) (k : bytes) (now : Z).
Variables (gw : (nat -> option err) + err) (enc : bytes + err) (hook : option err).
Theorem create_agrees : forall g, ModelSession.g_lock g c = None -> k <> [] ->
  ModelSession.f_json f k now now (if (info =? 0)%N then 0%N else ModelSession.f_vars f info) = match enc with inl b => Some b | inr _ => None end ->
  exists chs g' r e evs,
    (forall ch, In ch chs -> In ch [ModelSession.Go; ModelSession.ChSock connected; ModelSession.ChKey k now; choice_of gw]) /\
    alone (fun g => ModelSession.create_step f i g c info) g ModelSession.CStart chs = Some (g', ModelSession.CDone r) /\
    ModelFault.CreateSession broken (reporter (errs_of gw)) (ModelSession.f_enabled f) connected (key_on g c) k enc hook (writer_of gw) = Some e /\
    ModelSession.g_log g' = ModelSession.g_log g ++ evs /\
    create_means broken gw (length (calls_of evs)) (key_on g c) enc r (ModelFault.en_err e) /\
    key_on g' c = ModelFault.en_session e /\
    ModelFault.en_writer e = (match gw with inl _ => inl (calls_of evs) | inr x => inr x end) /\
    (ModelFault.en_hook e = true <-> In (ModelSession.LCreated i c) evs) /\
    ModelSession.g_lock g' c = None /\ ModelSession.g_crashed g' = ModelSession.g_crashed g.
Proof.
  intros g L K J. unfold ModelFault.CreateSession, key_on.
  assert (NW : calls_of [] = []) by reflexivity.
  assert (W0 : writer_of gw = match gw with inl _ => inl [] | inr x => inr x end) by reflexivity.
  destruct (ModelSession.f_enabled f) eqn:En; cbn [negb].
  2:{ exists [ModelSession.ChSock connected], g, ModelSession.RDisabled. eexists. exists [].
      split; [cbn; tauto|]. split; [cbn; rewrite En; reflexivity|]. split; [reflexivity|]. split; [symmetry; apply app_nil_r|].
      split; [constructor|]. split; [reflexivity|]. split; [exact W0|]. split; [cbn; split; [discriminate|tauto]|]. auto. }
  destruct connected; cbn [negb].
  2:{ exists [ModelSession.ChSock false], g, ModelSession.RDisconnected. eexists. exists [].
      split; [cbn; tauto|]. split; [cbn; rewrite En; reflexivity|]. split; [reflexivity|]. split; [symmetry; apply app_nil_r|].
      split; [constructor|]. split; [reflexivity|]. split; [exact W0|]. split; [cbn; split; [discriminate|tauto]|]. auto. }
  assert (LK : ModelSession.locked g c = false) by (unfold ModelSession.locked; rewrite L; reflexivity).
  destruct (ModelSession.g_sess g c) as [x|] eqn:X; cbn [option_map].
  { exists [ModelSession.ChSock true; ModelSession.Go; ModelSession.Go], g, ModelSession.RExists. eexists. exists [].
    split; [cbn; tauto|]. split; [cbn; rewrite En; cbn; rewrite LK, X; cbn; rewrite X; reflexivity|]. split; [reflexivity|]. split; [symmetry; apply app_nil_r|].
    split; [apply CM_exists; reflexivity|]. split; [cbn; rewrite X; reflexivity|]. split; [exact W0|]. split; [cbn; split; [discriminate|tauto]|]. auto. }
  destruct k as [|k0 k1] eqn:KE; [congruence|]. rewrite <- KE in *. clear K.
  assert (KL : (length k <? 1) = false) by (rewrite KE; reflexivity).
  set (s := ModelSession.MkSession k now now info).
  set (g1 := ModelSession.set_lock c (Some i) g).
  assert (R1 : forall chs, alone (fun g => ModelSession.create_step f i g c info) g ModelSession.CStart
      ([ModelSession.ChSock true; ModelSession.Go; ModelSession.ChKey k now] ++ chs) = alone (fun g => ModelSession.create_step f i g c info) g1 (ModelSession.CNote s) chs).
  { intros chs. cbn [app alone]. cbn [ModelSession.create_step]. rewrite En. cbn [negb ModelSession.create_step]. rewrite LK, X. cbn [ModelSession.create_step]. rewrite KL. reflexivity. }
  unfold ModelFault.notifySessionCreated. destruct enc as [b|em].
  2:{ exists ([ModelSession.ChSock true; ModelSession.Go; ModelSession.ChKey k now] ++ [choice_of gw]), (ModelSession.set_lock c None g1), ModelSession.RMarshal. eexists. exists [].
      split; [cbn; tauto|]. split; [rewrite R1; cbn [alone]; unfold choice_of; cbn [ModelSession.create_step]; cbn [ModelSession.x_key ModelSession.x_creation ModelSession.x_last s]; rewrite J; reflexivity|].
      split; [reflexivity|]. split; [symmetry; apply app_nil_r|].
      split; [cbn [ModelFault.en_err]; rewrite !pct_s_printed; apply (CM_marshal broken gw _ _ _ em); reflexivity|].
      split; [cbn; rewrite X; reflexivity|]. split; [exact W0|]. split; [cbn; split; [discriminate|tauto]|]. split; [apply upd_same|reflexivity]. }
  destruct gw as [errs|ge].
  2:{ exists ([ModelSession.ChSock true; ModelSession.Go; ModelSession.ChKey k now] ++ [choice_of (inr ge)]), (ModelSession.set_lock c None g1), ModelSession.RNoWriter. eexists. exists [].
      split; [cbn; tauto|]. split; [rewrite R1; cbn [alone]; unfold choice_of; cbn [ModelSession.create_step]; cbn [ModelSession.x_key ModelSession.x_creation ModelSession.x_last s]; rewrite J; reflexivity|].
      split; [reflexivity|]. split; [symmetry; apply app_nil_r|].
      split; [cbn [ModelFault.en_err]; rewrite pct_s_printed; apply CM_writer; reflexivity|].
      split; [cbn; rewrite X; reflexivity|]. split; [reflexivity|]. split; [cbn; split; [discriminate|tauto]|]. split; [apply upd_same|reflexivity]. }
  cbn [writer_of errs_of]. pose proof (kind_created broken errs b) as SK.
  destruct (ModelReport.WriteMsgNotifySessionCreated broken (reporter errs) [] b) as [[l [e|]]|] eqn:A; [| |exfalso; pose proof (created_some broken errs b); congruence].
  - destruct (WriteMsgNotifySessionCreated (log_writer (failing errs)) [] b) as [[l' [w|]]|] eqn:B; cbn [same_kind] in SK; try contradiction. destruct SK as [<- SK].
    exists ([ModelSession.ChSock true; ModelSession.Go; ModelSession.ChKey k now] ++ [choice_of (inl errs)]),
      (ModelSession.set_lock c None (ModelSession.log (ModelSession.LNotifyCreated i c s b l) g1)), (ModelSession.RWrite w). eexists. exists [ModelSession.LNotifyCreated i c s b l].
    split; [cbn; tauto|]. split; [rewrite R1; cbn [alone]; unfold choice_of; cbn [ModelSession.create_step]; cbn [ModelSession.x_key ModelSession.x_creation ModelSession.x_last s]; rewrite J, B; reflexivity|].
    split; [reflexivity|]. split; [reflexivity|]. cbn [calls_of flat_map]. rewrite app_nil_r.
    split; [cbn [ModelFault.en_err]; rewrite pct_s_printed; eapply CM_write; [reflexivity|exact SK]|].
    split; [cbn; rewrite X; reflexivity|]. split; [reflexivity|]. split; [cbn; split; [discriminate|intros [F|[]]; discriminate F]|]. split; [apply upd_same|reflexivity].
  - destruct (WriteMsgNotifySessionCreated (log_writer (failing errs)) [] b) as [[l' [w|]]|] eqn:B; cbn [same_kind] in SK; try contradiction. subst l'.
    set (g2 := ModelSession.set_sess c (Some s) (ModelSession.log (ModelSession.LNotifyCreated i c s b l) g1)).
    assert (X2 : ModelSession.g_sess g2 c = Some s) by apply upd_same.
    destruct (ModelSession.register (ModelSession.f_max f) (ModelSession.g_reg g2) k c) as [rg ok] eqn:RG.
    set (g3 := ModelSession.set_lock c None (ModelSession.set_reg rg g2)).
    set (g4 := if ok then ModelSession.log (ModelSession.LJoin i c k) g3 else g3).
    exists ([ModelSession.ChSock true; ModelSession.Go; ModelSession.ChKey k now] ++ [choice_of (inl errs); ModelSession.Go; ModelSession.Go; ModelSession.Go]),
      (ModelSession.log (ModelSession.LCreated i c) g4), ModelSession.RNil. eexists.
    exists (ModelSession.LNotifyCreated i c s b l :: (if ok then [ModelSession.LJoin i c k] else []) ++ [ModelSession.LCreated i c]).
    split; [cbn; tauto|].
    split.
    { rewrite R1. cbn [alone]. unfold choice_of. cbn [ModelSession.create_step]. cbn [ModelSession.x_key ModelSession.x_creation ModelSession.x_last s]. rewrite J, B.
      cbn [ModelSession.create_step]. fold g2. rewrite X2. cbn [ModelSession.x_key s]. rewrite RG. reflexivity. }
    split; [reflexivity|]. subst g4 g3.
    split; [destruct ok; cbn; rewrite <- !app_assoc; reflexivity|].
    assert (CO : calls_of (ModelSession.LNotifyCreated i c s b l :: (if ok then [ModelSession.LJoin i c k] else []) ++ [ModelSession.LCreated i c]) = l)
      by (destruct ok; cbn; rewrite ?app_nil_r; reflexivity).
    rewrite CO. split; [constructor|].
    split; [destruct ok; cbn; rewrite upd_same; reflexivity|]. split; [reflexivity|].
    split; [cbn [ModelFault.en_hook]; split; [intros _; right; apply in_or_app; right; left; reflexivity|reflexivity]|].
    destruct ok; (split; [apply upd_same|reflexivity]).
Qed.
End Create.

Section Close.
Variables (broken : err -> bytes) (f : ModelSession.config) (i c : nat).
Variables (gw : (nat -> option err) + err) (hook : ModelLog.hooked).
Notation panics := (match hook with ModelLog.HkPanic => true | _ => false end).
Notation step := (fun g => ModelSession.close_step f i g c).
Notation allowed := (fun ch => In ch [ModelSession.Go; ModelSession.ChHook panics; choice_of gw]).
Theorem close_agrees : forall g, ModelSession.g_lock g c = None ->
  match ModelFault.CloseSession broken (reporter (errs_of gw)) (ModelSession.f_enabled f) (key_on g c) (last_one c g) hook (writer_of gw) with
  | None => exists chs g' s, Forall allowed chs /\ alone step g ModelSession.QStart chs = Some (g', s) /\ ModelSession.g_crashed g' = true
  | Some e => exists chs g' r evs,
    Forall allowed chs /\
    alone step g ModelSession.QStart chs = Some (g', ModelSession.QDone r) /\
    ModelSession.g_log g' = ModelSession.g_log g ++ evs /\
    close_means broken gw (length (calls_of evs)) r (ModelFault.en_err e) /\
    key_on g' c = ModelFault.en_session e /\
    ModelFault.en_writer e = (match gw with inl _ => inl (calls_of evs) | inr x => inr x end) /\
    (ModelFault.en_hook e = true <-> exists k, In (ModelSession.LDestroy i k) evs) /\
    ModelSession.g_lock g' c = None /\ ModelSession.g_crashed g' = ModelSession.g_crashed g
  end.
Proof.
  intros g L. unfold ModelFault.CloseSession, key_on, last_one.
  assert (W0 : writer_of gw = match gw with inl _ => inl [] | inr x => inr x end) by reflexivity.
  destruct (ModelSession.f_enabled f) eqn:En; cbn [negb].
  2:{ exists [ModelSession.Go], g, ModelSession.RDisabled, [].
      split; [repeat constructor|]. split; [cbn; rewrite En; reflexivity|]. split; [symmetry; apply app_nil_r|].
      split; [constructor|]. split; [reflexivity|]. split; [exact W0|]. split; [cbn; split; [discriminate|intros (? & [])]|]. auto. }
  assert (LK : ModelSession.locked g c = false) by (unfold ModelSession.locked; rewrite L; reflexivity).
  destruct (ModelSession.g_sess g c) as [x|] eqn:X; cbn [option_map].
  2:{ exists [ModelSession.Go; ModelSession.Go], g, ModelSession.RNil, [].
      split; [repeat constructor|]. split; [cbn [alone ModelSession.close_step]; rewrite En; cbn [negb ModelSession.close_step]; rewrite LK, X; reflexivity|]. split; [symmetry; apply app_nil_r|].
      split; [constructor|]. split; [cbn; rewrite X; reflexivity|]. split; [exact W0|]. split; [cbn; split; [discriminate|intros (? & [])]|]. auto. }
  destruct (ModelSession.deregister (ModelSession.g_reg g) (ModelSession.x_key x) c) as [rg n] eqn:D. cbn [snd].
  set (g1 := ModelSession.set_lock c (Some i) g).
  set (g2 := ModelSession.log (ModelSession.LLeave i c (ModelSession.x_key x) true n) (ModelSession.set_reg rg g1)).
  assert (R1 : forall chs, alone step g ModelSession.QStart ([ModelSession.Go; ModelSession.Go; ModelSession.Go; ModelSession.Go] ++ chs) =
    alone step g2 (if (n =? 0)%Z then ModelSession.QDereg ModelSession.D2 else ModelSession.QNil) chs).
  { intros chs. cbn [app alone ModelSession.close_step]. rewrite En. cbn [negb ModelSession.close_step]. rewrite LK, X.
    cbn [ModelSession.close_step ModelSession.dereg_step]. fold g1. change (ModelSession.g_sess g1 c) with (ModelSession.g_sess g c). rewrite X.
    cbn [ModelSession.close_step ModelSession.dereg_step]. change (ModelSession.g_sess g1 c) with (ModelSession.g_sess g c). rewrite X.
    change (ModelSession.g_reg g1) with (ModelSession.g_reg g). rewrite D. fold g2. rewrite andb_true_r. destruct (n =? 0)%Z; reflexivity. }
  set (h := if (n =? 0)%Z then [ModelSession.LDestroy i (ModelSession.x_key x)] else []).
  assert (X2 : ModelSession.g_sess g2 c = Some x) by exact X.
  assert (HK : forall chs, ((n =? 0)%Z = true -> panics = false) -> exists pre g3, Forall allowed pre /\
     alone step g ModelSession.QStart (([ModelSession.Go; ModelSession.Go; ModelSession.Go; ModelSession.Go] ++ pre) ++ chs) = alone step g3 ModelSession.QNil chs /\
     ModelSession.g_log g3 = ModelSession.g_log g2 ++ h /\ ModelSession.g_sess g3 = ModelSession.g_sess g2 /\ ModelSession.g_lock g3 = ModelSession.g_lock g2 /\
     ModelSession.g_crashed g3 = ModelSession.g_crashed g2).
  { intros chs NP. destruct (n =? 0)%Z eqn:N0.
    - specialize (NP eq_refl). exists [ModelSession.ChHook panics], (ModelSession.log (ModelSession.LDestroy i (ModelSession.x_key x)) g2).
      split; [repeat constructor; cbn; tauto|]. split; [|repeat split; reflexivity].
      rewrite <- app_assoc, R1. cbn [app alone ModelSession.close_step ModelSession.dereg_step]. rewrite X2, NP. reflexivity.
    - exists [], g2. split; [constructor|]. split; [rewrite <- app_assoc, R1; reflexivity|]. subst h. rewrite app_nil_r. auto. }
  destruct (if (n =? 0)%Z then panics else false) eqn:PA.
  { destruct (n =? 0)%Z eqn:N0; [|discriminate]. destruct hook; try discriminate. cbn [ModelLog.destroyed ModelLog.o_res].
    exists ([ModelSession.Go; ModelSession.Go; ModelSession.Go; ModelSession.Go] ++ [ModelSession.ChHook true]). do 2 eexists.
    split; [repeat constructor; cbn; tauto|]. split; [rewrite R1; cbn [alone ModelSession.close_step ModelSession.dereg_step]; rewrite X2; reflexivity|reflexivity]. }
  assert (NP : (n =? 0)%Z = true -> panics = false) by (intros N0; rewrite N0 in PA; exact PA).
  set (d := if (n =? 0)%Z then ModelLog.destroyed hook else @ModelLog.MkOut (list call) [] (Some None)).
  assert (DO : ModelLog.o_res d = Some None) by (subst d; destruct (n =? 0)%Z; [|reflexivity]; specialize (NP eq_refl); destruct hook; [reflexivity|reflexivity|discriminate]).
  rewrite DO.
  destruct (HK [ModelSession.Go; choice_of gw] NP) as (pre & g3 & AL & RUN & LG & SE & LO & CR).
  set (g4 := ModelSession.set_lock c None (ModelSession.set_sess c None g3)).
  assert (LE : forall l, ModelSession.g_log g4 ++ l = ModelSession.g_log g ++ (ModelSession.LLeave i c (ModelSession.x_key x) true n :: h) ++ l).
  { intros l. subst g4. cbn [ModelSession.set_lock ModelSession.set_sess ModelSession.g_log]. rewrite LG. subst g2. cbn. rewrite <- !app_assoc. reflexivity. }
  assert (AL4 : Forall allowed (([ModelSession.Go; ModelSession.Go; ModelSession.Go; ModelSession.Go] ++ pre) ++ [ModelSession.Go; choice_of gw])).
  { apply Forall_app. split; [apply Forall_app; split; [repeat constructor|exact AL]|repeat constructor; cbn; tauto]. }
  assert (CH : forall l, calls_of ((ModelSession.LLeave i c (ModelSession.x_key x) true n :: h) ++ l) = calls_of l) by (intros l; subst h; destruct (n =? 0)%Z; reflexivity).
  assert (DE : forall l, (forall k, ~ In (ModelSession.LDestroy i k) l) ->
    (n =? 0)%Z = true <-> exists k, In (ModelSession.LDestroy i k) ((ModelSession.LLeave i c (ModelSession.x_key x) true n :: h) ++ l)).
  { intros l NL. subst h. destruct (n =? 0)%Z.
    - split; [intros _; eexists; right; left; reflexivity|reflexivity].
    - split; [discriminate|]. intros (k0 & [F|F]); [discriminate F|]. destruct (NL _ F). }
  assert (S4 : option_map ModelSession.x_key (ModelSession.g_sess g4 c) = None) by (subst g4; cbn; rewrite upd_same; reflexivity).
  assert (L4 : ModelSession.g_lock g4 c = None) by apply upd_same.
  assert (RUN2 : alone step g ModelSession.QStart (([ModelSession.Go; ModelSession.Go; ModelSession.Go; ModelSession.Go] ++ pre) ++ [ModelSession.Go; choice_of gw]) =
    alone step g4 ModelSession.QNote [choice_of gw]) by (rewrite RUN; reflexivity).
  assert (C4 : ModelSession.g_crashed g4 = ModelSession.g_crashed g) by exact CR.
  destruct gw as [errs|ge]; cbn [writer_of errs_of]; cbn [ModelFault.notifySessionClosed].
  - pose proof (kind_closed broken errs) as SK. 
    destruct (ModelReport.WriteMsgNotifySessionClosed broken (reporter errs) []) as [[l e]|] eqn:A; [|exfalso; pose proof (closed_some broken errs); congruence].
    cbv beta iota.
    destruct (WriteMsgNotifySessionClosed (log_writer (failing errs)) []) as [[l' w]|] eqn:B; cbn [same_kind] in SK; [|destruct e; contradiction].
    assert (l' = l) as -> by (destruct e, w; cbn [same_kind] in SK; try contradiction; [destruct SK; congruence|congruence]).
    exists (([ModelSession.Go; ModelSession.Go; ModelSession.Go; ModelSession.Go] ++ pre) ++ [ModelSession.Go; choice_of (inl errs)]),
      (ModelSession.log (ModelSession.LNotifyClosed i c l) g4), (match w with Some w => ModelSession.RWrite w | None => ModelSession.RNil end),
      ((ModelSession.LLeave i c (ModelSession.x_key x) true n :: h) ++ [ModelSession.LNotifyClosed i c l]).
    split; [exact AL4|]. split; [rewrite RUN2; unfold choice_of; cbn [alone ModelSession.close_step]; rewrite B; reflexivity|].
    split; [apply (LE [ModelSession.LNotifyClosed i c l])|]. rewrite CH. cbn [calls_of flat_map]. rewrite app_nil_r.
    split; [|split; [exact S4|split; [reflexivity|split; [apply DE; intros k0 [F|[]]; discriminate F|split; [exact L4|exact C4]]]]].
    cbn [ModelFault.en_err]. destruct e as [e|], w as [w|]; cbn [same_kind] in SK; try contradiction; [|constructor].
    destruct SK as [_ SK]. eapply QM_write; [reflexivity|exact SK].
  - exists (([ModelSession.Go; ModelSession.Go; ModelSession.Go; ModelSession.Go] ++ pre) ++ [ModelSession.Go; choice_of (inr ge)]), g4, ModelSession.RNoWriter,
      ((ModelSession.LLeave i c (ModelSession.x_key x) true n :: h) ++ []).
    split; [exact AL4|]. split; [rewrite RUN2; reflexivity|]. split; [rewrite <- (LE []); symmetry; apply app_nil_r|]. rewrite CH.
    split; [apply QM_writer; reflexivity|]. split; [exact S4|]. split; [reflexivity|]. split; [apply DE; intros k0 []|]. split; [exact L4|exact C4].
Qed.
End Close.
