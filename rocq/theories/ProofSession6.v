(* Sessions: closing and restoring when no other call interferes *)
From Coq Require Import List Arith NArith ZArith Lia Bool.
From Verif Require Import BaseBytes BaseConc ModelMessage ModelWrite ModelHandle ModelSession.
From Verif Require Import SpecWire SpecMessage SpecWrite SpecHandle SpecSession.
From Verif Require Import ProofWrite ProofHandle ProofSession ProofSession2 ProofSession3 ProofSession4 ProofSession5.
Import ListNotations.
Open Scope nat_scope.

Local Arguments Nat.ltb : simpl never.
Local Arguments Nat.eqb : simpl never.
Local Arguments N.ltb : simpl never.
Local Arguments N.eqb : simpl never.
Local Arguments Z.leb : simpl never.
Local Arguments Z.eqb : simpl never.
Local Arguments Z.of_nat : simpl never.
Local Arguments register : simpl never.
Local Arguments deregister : simpl never.
Local Arguments map_set : simpl never.
Local Arguments map_del : simpl never.
Local Arguments map_get : simpl never.
Local Arguments reply : simpl never.

(* ---------- deregistering ---------- *)
Section Dereg.
Variables (i c : nat) (b : bool) (g0 : srv) (x : session).
Variables (se : nat -> option session) (lo : nat -> option nat) (r0 : registry) (evs : list event).
Hypothesis Sx : se c = Some x.
Definition dP (d : dstate) (g : srv) : Prop :=
  match d with
  | D0 | D1 => st g0 g se lo r0 evs
  | D2 => b = true /\ exists r, deregister r0 (x_key x) c = (r, 0%Z) /\ st g0 g se lo r (evs ++ [LLeave i c (x_key x) b 0])
  end.
Definition dleave (n : Z) : list event :=
  LLeave i c (x_key x) b n :: if b && (n =? 0)%Z then [LDestroy i (x_key x)] else [].
Definition dF (g : srv) : Prop :=
  exists r n, deregister r0 (x_key x) c = (r, n) /\ st g0 g se lo r (evs ++ dleave n).
Lemma dereg_outline g d ch g' d' : dP d g -> dcase i g c b d ch g' d' ->
  g_crashed g' = true \/ match d' with Some d1 => dP d1 g' | None => dF g' end.
Proof.
  intros P H. inversion H; subst; clear H; cbn [dP] in *; auto.
  - exfalso. pose proof (st_sess _ _ _ _ _ _ P c). congruence.
  - assert (x0 = x) by (pose proof (st_sess _ _ _ _ _ _ P c); congruence). subst x0. rewrite (st_reg _ _ _ _ _ _ P) in *.
    right. split; [assumption|]. exists r. split; [assumption|]. apply st_log_ev. eapply st_set_reg; exact P.
  - assert (x0 = x) by (pose proof (st_sess _ _ _ _ _ _ P c); congruence). subst x0. rewrite (st_reg _ _ _ _ _ _ P) in *.
    right. exists r, n. split; [assumption|]. unfold dleave.
    replace (b && (n =? 0)%Z) with false; [apply st_log_ev; eapply st_set_reg; exact P|].
    destruct (Z.eqb_spec n 0) as [->|]; [|rewrite andb_false_r; reflexivity].
    match goal with X : _ <> _ \/ _ |- _ => destruct X; [congruence|subst b; reflexivity] end.
  - destruct P as (Eb & r & D & P). assert (x0 = x) by (pose proof (st_sess _ _ _ _ _ _ P c); congruence). subst x0.
    right. exists r, 0%Z. split; [exact D|]. unfold dleave. rewrite Eb in *. cbn [andb Z.eqb].
    change ((0 =? 0)%Z) with true. cbv iota.
    replace (evs ++ [LLeave i c (x_key x) true 0; LDestroy i (x_key x)])
      with ((evs ++ [LLeave i c (x_key x) true 0]) ++ [LDestroy i (x_key x)]) by (rewrite <- app_assoc; reflexivity).
    apply st_log_ev. exact P.
Qed.
End Dereg.

(* ---------- CloseSession ---------- *)
Section Close.
Variables (f : config) (i c : nat) (g0 : srv).
Variables (se : nat -> option session) (lo : nat -> option nat) (r0 : registry) (evs : list event).
Definition lC (x : session) (more : list event) (g : srv) : Prop :=
  exists r n, deregister r0 (x_key x) c = (r, n) /\ st g0 g (upd se c None) lo r (evs ++ dleave i c true x n ++ more).
Definition lP (q : lstate) (g : srv) : Prop :=
  let base := st g0 g se lo r0 evs in
  let lo' := upd lo c (Some i) in
  match q with
  | QStart => base
  | QLock => f_enabled f = true /\ base
  | QDereg d => f_enabled f = true /\ lo c = None /\ exists x, se c = Some x /\ dP i c true g0 x se lo' r0 evs d g
  | QNil => f_enabled f = true /\ lo c = None /\ exists x, se c = Some x /\ dF i c true g0 x se lo' r0 evs g
  | QNote => f_enabled f = true /\ exists x, se c = Some x /\ lC x [] g
  | QDone r => (f_enabled f = false /\ r = RDisabled /\ base) \/ (f_enabled f = true /\ se c = None /\ r = RNil /\ base) \/
      (f_enabled f = true /\ exists x more, se c = Some x /\ closed_note i c more r /\ lC x more g)
  end.
Lemma close_outline g q ch g' q' : lP q g -> lcase f i g c q ch g' q' ->
  (g_crashed g' = true /\ qdone q' = false) \/ lP q' g'.
Proof.
  intros P H. inversion H; subst; clear H; cbn [lP] in *.
  - right. left. auto.
  - right. auto.
  - destruct P as [En P]. right. right. left. split; [exact En|]. split; [rewrite <- (st_sess _ _ _ _ _ _ P c); assumption|]. auto.
  - destruct P as [En P]. right. split; [exact En|]. split; [rewrite <- (st_lock _ _ _ _ _ _ P c); assumption|].
    exists x. split; [rewrite <- (st_sess _ _ _ _ _ _ P c); assumption|]. apply st_set_lock, P.
  - destruct P as (En & Lo & x & Sx & P). match goal with Z0 : dcase _ _ _ _ _ _ _ _ |- _ => rename Z0 into Hz end; apply (dereg_outline _ _ _ _ x _ _ _ _ Sx _ _ _ _ _ P) in Hz as [X|X]; [left; auto|].
    right. eauto.
  - destruct P as (En & Lo & x & Sx & P). match goal with Z0 : dcase _ _ _ _ _ _ _ _ |- _ => rename Z0 into Hz end; apply (dereg_outline _ _ _ _ x _ _ _ _ Sx _ _ _ _ _ P) in Hz as [X|X]; [left; auto|].
    right. eauto.
  - destruct P as (En & Lo & x & Sx & r & n & D & P). right. split; [exact En|]. exists x. split; [exact Sx|]. exists r, n. split; [exact D|].
    rewrite app_nil_r. eapply st_unlock; [|exact Lo]. apply st_set_sess. exact P.
  - destruct P as (En & x & Sx & P). right. right. right. split; [exact En|]. exists x, []. split; [exact Sx|]. split; [reflexivity|exact P].
  - destruct P as (En & x & Sx & r & n & D & P). right. right. right. split; [exact En|]. exists x, [LNotifyClosed i c calls]. split; [exact Sx|].
    match goal with X : WriteMsgNotifySessionClosed _ _ = _ |- _ => apply closed_written in X; rename X into Wr end. split.
    + destruct e; cbn; eauto.
    + exists r, n. split; [exact D|]. rewrite app_nil_r in P. rewrite app_assoc. apply st_log_ev. exact P.
Qed.
End Close.

(* what has happened, in terms of the registry's observers *)
Lemma lC_ended s s' c x r n more b : wf 0%N (reg s) \/ (exists m, wf m (reg s)) -> inreg (reg s) c (x_key x) ->
  deregister (reg s) (x_key x) c = (r, n) ->
  st (s_srv s) (s_srv s') (upd (g_sess (s_srv s)) c None) (g_lock (s_srv s)) r (dleave (me s) c b x n ++ more) ->
  ended s s' c x b more.
Proof.
  intros W I D P. assert (exists m, wf m (reg s)) as [m W'] by (destruct W; eauto). clear W.
  split; [eapply set_is_set; exact P|]. split.
  - intros c' k'. unfold listed, sessionConnections. rewrite (st_reg _ _ _ _ _ _ P).
    pose proof (deregister_in m (reg s) (x_key x) c c' k' W' I) as Y. rewrite D in Y. exact Y.
  - exists n. destruct (deregister_count m (reg s) (x_key x) c W' I) as [C _]. rewrite D in C. split; [exact C|].
    rewrite (st_log _ _ _ _ _ _ P). unfold dleave. reflexivity.
Qed.
Lemma idle_listed f ok s c x : at_least f ok -> sreach f ok s -> idle s c -> g_sess (s_srv s) c = Some x -> inreg (reg s) c (x_key x).
Proof. intros AL R I X. apply (listed_iff f ok s c (x_key x) AL R I). exists x. auto. Qed.

Theorem close_alone f ok s c chs s' r : at_least f ok -> sreach f ok s -> idle s c ->
  alone f s (EvClose c) chs = Some s' -> s_ts s' = s_ts s ++ [TClose c (QDone r)] -> close_outcome f s c s' r.
Proof.
  intros AL R I H Ts.
  destruct (solo f s (EvClose c) (TClose c QStart) (fun g t => crashed_early g t \/ exists p, t = TClose c p /\
    lP f (me s) c (s_srv s) (g_sess (s_srv s)) (g_lock (s_srv s)) (reg s) [] p g) chs s' eq_refl) as (t & Et & P).
  - right. exists QStart. split; [reflexivity|]. apply st_refl.
  - intros g t ch g' t' Nc [[Cr _]|(p & -> & Hp)] Hc; [congruence|]. inversion Hc; subst; clear Hc.
    match goal with Z0 : lcase _ _ _ _ _ _ _ _ |- _ => rename Z0 into Hz end; apply (close_outline _ _ _ _ _ _ _ _ _ _ _ _ _ Hp) in Hz as [[X Q]|X].
    + left. split; [exact X|]. match goal with |- finished (TClose _ ?s) = _ => destruct s; try discriminate; reflexivity end.
    + right. eauto.
  - exact H.
  - rewrite Ts in Et. apply app_inv_head in Et. injection Et as <-.
    destruct P as [P|(p & Ep & P)]; [exfalso; eapply finished_not_early; [|exact P]; reflexivity|]. injection Ep as <-.
    cbn [lP] in P. destruct P as [(A & -> & B)|[(A & C & -> & B)|(A & x & more & Sx & Cn & rr & n & D & B)]].
    + apply base_untouched in B as [B1 B2]. rewrite app_nil_r in B2. constructor; auto.
    + apply base_untouched in B as [B1 B2]. rewrite app_nil_r in B2. constructor; auto.
    + eapply QO_closed; eauto. eapply lC_ended; eauto; [right; exists (f_max f); eapply reg_wf; eauto|eapply idle_listed; eauto].
Qed.

(* ---------- the end of a connection ---------- *)
Section Unlink.
Variables (f : config) (s : sys) (c : nat).
Let g0 := s_srv s.
Let i := me s.
Definition uP (p : ustate) (g : srv) : Prop :=
  let se := g_sess g0 in let lo := g_lock g0 in let r0 := reg s in
  (se c = None /\ match p with
                  | UDereg D0 | UNil => st g0 g se lo r0 []
                  | UClose => st g0 g se lo r0 []
                  | UDone => st g0 g se lo r0 [LSockClosed i c]
                  | _ => False
                  end) \/
  exists x, se c = Some x /\
    match p with
    | UDereg d => dP i c false g0 x se lo r0 [] d g
    | UNil => dF i c false g0 x se lo r0 [] g
    | UClose => exists r n, deregister r0 (x_key x) c = (r, n) /\ st g0 g (upd se c None) lo r (dleave i c false x n ++ [])
    | UDone => exists r n, deregister r0 (x_key x) c = (r, n) /\ st g0 g (upd se c None) lo r (dleave i c false x n ++ [LSockClosed i c])
    end.
Lemma st_clear_none g evs r lo : g_sess g0 c = None -> st g0 g (g_sess g0) lo r evs -> st g0 (set_sess c None g) (g_sess g0) lo r evs.
Proof.
  intros Z [A B C D]. split; cbn; auto. intros c'. unfold upd. destruct (Nat.eqb_spec c' c) as [->|]; auto.
Qed.
Lemma unlink_outline g t ch g' t' : g_crashed g = false ->
  crashed_early g t \/ (exists p, t = TUnlink c p /\ uP p g) -> tcase f i g t ch g' t' ->
  crashed_early g' t' \/ exists p, t' = TUnlink c p /\ uP p g'.
Proof.
  intros Nc [[Cr _]|(p & -> & Hp)] H; [congruence|]. inversion H; subst; clear H.
  match goal with X : ucase _ _ _ _ _ _ _ |- _ => rename X into U end.
  destruct Hp as [[Z Hp]|(x & X & Hp)].
  - inversion U; subst; clear U.
    + match goal with Q : dcase _ _ _ _ _ _ _ _ |- _ => inversion Q; subst; clear Q end; try contradiction.
      exfalso. pose proof (st_sess _ _ _ _ _ _ Hp c). congruence.
    + match goal with Q : dcase _ _ _ _ _ _ _ _ |- _ => inversion Q; subst; clear Q end; try contradiction.
      right. exists UNil. split; [reflexivity|]. left. auto.
    + right. exists UClose. split; [reflexivity|]. left. split; [exact Z|]. apply st_clear_none; assumption.
    + right. exists UDone. split; [reflexivity|]. left. split; [exact Z|]. apply (st_log_ev _ _ _ _ _ []). exact Hp.
  - inversion U; subst; clear U.
    + match goal with Z0 : dcase _ _ _ _ _ _ _ _ |- _ => rename Z0 into Hz end; apply (dereg_outline _ _ _ _ x _ _ _ _ X _ _ _ _ _ Hp) in Hz as [Q|Q];
        [left; split; auto|right]. eexists; split; [reflexivity|]. right. eauto.
    + match goal with Z0 : dcase _ _ _ _ _ _ _ _ |- _ => rename Z0 into Hz end; apply (dereg_outline _ _ _ _ x _ _ _ _ X _ _ _ _ _ Hp) in Hz as [Q|Q];
        [left; split; auto|right]. eexists; split; [reflexivity|]. right. eauto.
    + destruct Hp as (r & n & D & Hp). right. eexists; split; [reflexivity|]. right. exists x. split; [exact X|].
      exists r, n. split; [exact D|]. rewrite app_nil_r. apply st_set_sess. exact Hp.
    + destruct Hp as (r & n & D & Hp). right. eexists; split; [reflexivity|]. right. exists x. split; [exact X|].
      exists r, n. split; [exact D|]. rewrite app_nil_r in Hp. apply st_log_ev. exact Hp.
Qed.
End Unlink.
Theorem unlink_alone f ok s c chs s' : at_least f ok -> sreach f ok s -> idle s c ->
  alone f s (EvUnlink c) chs = Some s' -> s_ts s' = s_ts s ++ [TUnlink c UDone] -> unlink_outcome s c s'.
Proof.
  intros AL R I H Ts.
  destruct (solo f s (EvUnlink c) (TUnlink c (UDereg D0)) (fun g t => crashed_early g t \/ exists p, t = TUnlink c p /\ uP s c p g) chs s' eq_refl) as (t & Et & P).
  - right. exists (UDereg D0). split; [reflexivity|]. destruct (g_sess (s_srv s) c) as [x|] eqn:X; [right; exists x|left]; (split; [assumption|apply st_refl]).
  - intros g t ch g' t' Nc Hp Hc. eapply unlink_outline; eauto.
  - exact H.
  - rewrite Ts in Et. apply app_inv_head in Et. injection Et as <-.
    destruct P as [P|(p & Ep & P)]; [exfalso; eapply finished_not_early; [|exact P]; reflexivity|]. injection Ep as <-.
    destruct P as [[Z P]|(x & X & r & n & D & P)].
    + left. split; [exact Z|]. apply base_untouched in P. exact P.
    + right. exists x. split; [exact X|]. eapply lC_ended; eauto; [right; exists (f_max f); eapply reg_wf; eauto|eapply idle_listed; eauto].
Qed.

(* ---------- the closing request ---------- *)
Section Closure.
Variables (f : config) (s : sys) (c : nat) (m : message).
Let g0 := s_srv s.
Let i := me s.
Definition xdone (a : answer) (more : list event) (g : srv) : Prop :=
  let se := g_sess g0 in let lo := g_lock g0 in let r0 := reg s in
  (f_enabled f = false /\ a = AFail ESessDisabled /\ st g0 g se lo r0 more) \/
  (f_enabled f = true /\ se c = None /\ a = AOk (Binary, []) /\ st g0 g se lo r0 more) \/
  (f_enabled f = true /\ exists x r n, se c = Some x /\ a = AOk (Binary, []) /\ deregister r0 (x_key x) c = (r, n) /\
     st g0 g (upd se c None) lo r (dleave i c true x n ++ more)).
Definition xP (p : xstate) (g : srv) : Prop :=
  let se := g_sess g0 in let lo := g_lock g0 in let r0 := reg s in
  match p with
  | XStart => st g0 g se lo r0 []
  | XHas => f_enabled f = true /\ st g0 g se lo r0 []
  | XDereg d => f_enabled f = true /\ exists x, se c = Some x /\ dP i c true g0 x se lo r0 [] d g
  | XNil => f_enabled f = true /\ exists x, se c = Some x /\ dF i c true g0 x se lo r0 [] g
  | XRep a => xdone a [] g
  | XDone => exists a w sn, reply m a w = Some sn /\ xdone a [LReply i c m a sn] g
  end.
Lemma xdone_more a g e : xdone a [] g -> xdone a [e] (log e g).
Proof.
  intros [(A & B & C)|[(A & B & C & D)|(A & x & r & n & B & C & D & E)]].
  - left. repeat (split; [assumption|]). apply (st_log_ev _ _ _ _ _ []). exact C.
  - right. left. repeat (split; [assumption|]). apply (st_log_ev _ _ _ _ _ []). exact D.
  - right. right. split; [exact A|]. exists x, r, n. repeat (split; [assumption|]). rewrite app_nil_r in E. apply st_log_ev. exact E.
Qed.
Lemma closure_outline g t ch g' t' : g_crashed g = false ->
  crashed_early g t \/ (exists p, t = TClosure c m p /\ xP p g) -> tcase f i g t ch g' t' ->
  crashed_early g' t' \/ exists p, t' = TClosure c m p /\ xP p g'.
Proof.
  intros Nc [[Cr _]|(p & -> & Hp)] H; [congruence|]. inversion H; subst; clear H.
  match goal with X : xcase _ _ _ _ _ _ _ _ _ |- _ => inversion X; subst; clear X end; cbn [xP] in Hp.
  - right. eexists; split; [reflexivity|]. left. auto.
  - right. eexists; split; [reflexivity|]. split; auto.
  - destruct Hp as [A B]. right. eexists; split; [reflexivity|]. right. left. split; [exact A|].
    split; [fold g0; rewrite <- (st_sess _ _ _ _ _ _ B c); assumption|]. auto.
  - destruct Hp as [A B]. right. eexists; split; [reflexivity|]. split; [exact A|]. exists x.
    split; [rewrite <- (st_sess _ _ _ _ _ _ B c); assumption|exact B].
  - destruct Hp as (A & x & X & Hp).
    match goal with Z0 : dcase _ _ _ _ _ _ _ _ |- _ => rename Z0 into Hz end; apply (dereg_outline _ _ _ _ x _ _ _ _ X _ _ _ _ _ Hp) in Hz as [Q|Q];
      [left; split; auto|right]. eexists; split; [reflexivity|]. split; eauto.
  - destruct Hp as (A & x & X & Hp).
    match goal with Z0 : dcase _ _ _ _ _ _ _ _ |- _ => rename Z0 into Hz end; apply (dereg_outline _ _ _ _ x _ _ _ _ X _ _ _ _ _ Hp) in Hz as [Q|Q];
      [left; split; auto|right]. eexists; split; [reflexivity|]. split; eauto.
  - destruct Hp as (A & x & X & r & n & D & Hp). right. eexists; split; [reflexivity|]. right. right. split; [exact A|].
    exists x, r, n. split; [exact X|]. split; [reflexivity|]. split; [exact D|]. rewrite app_nil_r. apply st_set_sess. exact Hp.
  - left. split; reflexivity.
  - right. eexists; split; [reflexivity|]. eexists a, w, _. split; [eassumption|]. apply xdone_more. exact Hp.
Qed.
End Closure.
Theorem closure_alone f ok s c m chs s' : at_least f ok -> sreach f ok s -> idle s c ->
  alone f s (EvClosure c m) chs = Some s' -> s_ts s' = s_ts s ++ [TClosure c m XDone] ->
  exists a w sn, reply m a w = Some sn /\ closure_outcome f s c m s' a sn.
Proof.
  intros AL R I H Ts.
  destruct (solo f s (EvClosure c m) (TClosure c m XStart) (fun g t => crashed_early g t \/ exists p, t = TClosure c m p /\ xP f s c m p g) chs s' eq_refl) as (t & Et & P).
  - right. exists XStart. split; [reflexivity|]. apply st_refl.
  - intros g t ch g' t' Nc Hp Hc. eapply closure_outline; eauto.
  - exact H.
  - rewrite Ts in Et. apply app_inv_head in Et. injection Et as <-.
    destruct P as [P|(p & Ep & P)]; [exfalso; eapply finished_not_early; [|exact P]; reflexivity|]. injection Ep as <-.
    destruct P as (a & w & sn & Re & P). exists a, w, sn. split; [exact Re|].
    destruct P as [(A & -> & C)|[(A & B & -> & D)|(A & x & r & n & B & -> & D & E)]].
    + apply base_untouched in C as [C1 C2]. constructor; auto.
    + apply base_untouched in D as [D1 D2]. constructor; auto.
    + eapply XO_closed; eauto. eapply lC_ended; eauto; [right; exists (f_max f); eapply reg_wf; eauto|eapply idle_listed; eauto].
Qed.

(* ---------- the restoring request ---------- *)
Section Restore.
Variables (f : config) (s : sys) (c : nat) (m : message).
Let g0 := s_srv s.
Let i := me s.
Let k := payload_of m.
Definition rdone (a : answer) (more : list event) (g : srv) : Prop :=
  let se := g_sess g0 in let lo := g_lock g0 in let r0 := reg s in
  let en := f_enabled f = true in let room := has_room f s k in
  (f_enabled f = false /\ a = AFail ESessDisabled /\ st g0 g se lo r0 more) \/
  (en /\ ~ room /\ a = AFail EMaxSessConns /\ st g0 g se lo r0 more) \/
  (en /\ room /\ a = AFail ENil /\ st g0 g se lo r0 (LLookup i k LkErr :: more)) \/
  (en /\ room /\ a = AFail ESessNotFound /\ st g0 g se lo r0 (LLookup i k LkNil :: more)) \/
  (en /\ room /\ exists cr la info, f_json f k cr la info = None /\ a = AFail ENil /\
     st g0 g se lo r0 (LLookup i k (LkFound cr la info) :: more)) \/
  (en /\ room /\ exists cr la info enc r, f_json f k cr la info = Some enc /\ a = AOk (Utf8, enc) /\
     r = fst (register (f_max f) r0 k c) /\
     st g0 g (upd se c (Some (MkSession k cr la (parsed f info)))) lo r (LLookup i k (LkFound cr la info) :: LJoin i c k :: more)).
Definition rP (p : rstate) (g : srv) : Prop :=
  let se := g_sess g0 in let lo := g_lock g0 in let r0 := reg s in
  let en := f_enabled f = true in let room := has_room f s k in
  match p with
  | RStart => st g0 g se lo r0 []
  | RCount => en /\ st g0 g se lo r0 []
  | RLook => en /\ room /\ st g0 g se lo r0 []
  | RSet x enc => en /\ room /\ exists cr la info, f_json f k cr la info = Some enc /\ x = MkSession k cr la (parsed f info) /\
      st g0 g se lo r0 [LLookup i k (LkFound cr la info)]
  | RReg enc => en /\ room /\ exists cr la info, f_json f k cr la info = Some enc /\
      st g0 g (upd se c (Some (MkSession k cr la (parsed f info)))) lo r0 [LLookup i k (LkFound cr la info)]
  | RRep a => rdone a [] g
  | RDone => exists a w sn, reply m a w = Some sn /\ rdone a [LReply i c m a sn] g
  end.
Lemma rdone_more a g e : rdone a [] g -> rdone a [e] (log e g).
Proof.
  unfold rdone. intros [(A & B & C)|[(A & B & C & D)|[(A & B & C & D)|[(A & B & C & D)|[(A & B & cr & la & info & J & C & D)|(A & B & cr & la & info & enc & r & J & C & E & D)]]]]].
  - left. repeat (split; [assumption|]). apply (st_log_ev _ _ _ _ _ []). exact C.
  - right; left. repeat (split; [assumption|]). apply (st_log_ev _ _ _ _ _ []). exact D.
  - right; right; left. repeat (split; [assumption|]). apply (st_log_ev _ _ _ _ _ [_]). exact D.
  - right; right; right; left. repeat (split; [assumption|]). apply (st_log_ev _ _ _ _ _ [_]). exact D.
  - do 4 right; left. repeat (split; [assumption|]). exists cr, la, info. repeat (split; [assumption|]). apply (st_log_ev _ _ _ _ _ [_]). exact D.
  - do 5 right. repeat (split; [assumption|]). exists cr, la, info, enc, r. repeat (split; [assumption|]). apply (st_log_ev _ _ _ _ _ [_; _]). exact D.
Qed.
Lemma restore_outline g t ch g' t' : g_crashed g = false ->
  crashed_early g t \/ (exists p, t = TRestore c m p /\ rP p g) -> tcase f i g t ch g' t' ->
  crashed_early g' t' \/ exists p, t' = TRestore c m p /\ rP p g'.
Proof.
  intros Nc [[Cr _]|(p & -> & Hp)] H; [congruence|]. inversion H; subst; clear H.
  match goal with X : rcase _ _ _ _ _ _ _ _ _ |- _ => inversion X; subst; clear X end; cbn [rP] in Hp;
    try (left; split; reflexivity); right; eexists; (split; [reflexivity|]); cbn [rP].
  - left. auto.
  - auto.
  - destruct Hp as [A B]. right; left. split; [exact A|]. rewrite (st_reg _ _ _ _ _ _ B) in *. split; [|auto].
    unfold has_room, k. lia.
  - destruct Hp as [A B]. split; [exact A|]. rewrite (st_reg _ _ _ _ _ _ B) in *. split; [|exact B]. assumption.
  - destruct Hp as (A & B & C). do 2 right; left. repeat (split; [assumption || reflexivity|]). apply (st_log_ev _ _ _ _ _ []). exact C.
  - destruct Hp as (A & B & C). do 3 right; left. repeat (split; [assumption || reflexivity|]). apply (st_log_ev _ _ _ _ _ []). exact C.
  - destruct Hp as (A & B & C). do 4 right; left. repeat (split; [assumption|]). exists cr, la, info. split; [assumption|]. split; [reflexivity|].
    apply (st_log_ev _ _ _ _ _ []). exact C.
  - destruct Hp as (A & B & C). repeat (split; [assumption|]). exists cr, la, info. split; [assumption|]. split; [reflexivity|].
    apply (st_log_ev _ _ _ _ _ []). exact C.
  - destruct Hp as (A & B & cr & la & info & J & -> & C). repeat (split; [assumption|]). exists cr, la, info. split; [exact J|]. apply st_set_sess. exact C.
  - destruct Hp as (A & B & cr & la & info & J & C). do 5 right. repeat (split; [assumption|]).
    assert (X : x = MkSession k cr la (parsed f info)).
    { pose proof (st_sess _ _ _ _ _ _ C c) as Y. unfold upd in Y. rewrite Nat.eqb_refl in Y. congruence. }
    subst x. cbn [x_key] in *. match goal with X : register _ _ _ _ = _ |- _ => rename X into Hr end. rewrite (st_reg _ _ _ _ _ _ C) in Hr.
    exists cr, la, info, enc, r. split; [exact J|]. split; [reflexivity|]. split; [rewrite Hr; reflexivity|].
    apply (st_log_ev _ _ _ _ _ [_]). eapply st_set_reg; exact C.
  - eexists a, w, _. split; [eassumption|]. apply rdone_more. exact Hp.
Qed.
End Restore.
Theorem restore_alone f s c m chs s' : alone f s (EvRestore c m) chs = Some s' -> s_ts s' = s_ts s ++ [TRestore c m RDone] ->
  exists a w sn, reply m a w = Some sn /\ restore_outcome f s c m (payload_of m) s' a sn.
Proof.
  intros H Ts.
  destruct (solo f s (EvRestore c m) (TRestore c m RStart) (fun g t => crashed_early g t \/ exists p, t = TRestore c m p /\ rP f s c m p g) chs s' eq_refl) as (t & Et & P).
  - right. exists RStart. split; [reflexivity|]. apply st_refl.
  - intros g t ch g' t' Nc Hp Hc. eapply restore_outline; eauto.
  - exact H.
  - rewrite Ts in Et. apply app_inv_head in Et. injection Et as <-.
    destruct P as [P|(p & Ep & P)]; [exfalso; eapply finished_not_early; [|exact P]; reflexivity|]. injection Ep as <-.
    destruct P as (a & w & sn & Re & P). exists a, w, sn. split; [exact Re|].
    destruct P as [(A & -> & C)|[(A & B & -> & D)|[(A & B & -> & D)|[(A & B & -> & D)|[(A & B & cr & la & info & J & -> & D)|(A & B & cr & la & info & enc & r & J & -> & E & D)]]]]].
    + apply base_untouched in C as [C1 C2]. constructor; auto.
    + apply base_untouched in D as [D1 D2]. constructor; auto.
    + apply base_untouched in D as [D1 D2]. eapply RO_error; auto.
    + apply base_untouched in D as [D1 D2]. constructor; auto.
    + apply base_untouched in D as [D1 D2]. eapply RO_marshal; eauto.
    + eapply RO_restored; eauto; [eapply set_is_set; exact D|eapply joined_register; eauto; apply D|apply D].
Qed.
