(* Sessions: what each call does when no other call interferes *)
From Coq Require Import List Arith NArith ZArith Lia Bool.
From Verif Require Import BaseBytes BaseConc ModelMessage ModelWrite ModelHandle ModelSession.
From Verif Require Import SpecWire SpecMessage SpecWrite SpecHandle SpecSession.
From Verif Require Import ProofWrite ProofHandle ProofSession ProofSession2 ProofSession3 ProofSession4.
Import ListNotations.
Open Scope nat_scope.

Local Arguments Nat.ltb : simpl never.
Local Arguments Nat.eqb : simpl never.
Local Arguments N.ltb : simpl never.
Local Arguments N.eqb : simpl never.
Local Arguments Z.leb : simpl never.
Local Arguments Z.eqb : simpl never.
Local Arguments Z.of_nat : simpl never.
Local Arguments register : simpl never.
Local Arguments deregister : simpl never.
Local Arguments map_set : simpl never.
Local Arguments map_del : simpl never.
Local Arguments map_get : simpl never.

(* ---------- runs of one thread ---------- *)
Lemma solo_steps f i (P : srv -> thread -> Prop) :
  (forall g t ch g' t', g_crashed g = false -> P g t -> tcase f i g t ch g' t' -> P g' t') ->
  forall chs s ts t s', s_ts s = ts ++ [t] -> length ts = i -> P (s_srv s) t ->
  srun f s (map (EvStep i) chs) = Some s' -> exists t', s_ts s' = ts ++ [t'] /\ P (s_srv s') t'.
Proof.
  intros St. induction chs as [|ch chs IH]; cbn [map srun]; intros s ts t s' Ts L Pt H.
  - injection H as <-. eauto.
  - destruct (sstep f s (EvStep i ch)) as [s1|] eqn:E; [|discriminate].
    apply step_inv in E as [C [(u & B & _)|(i' & ch' & u & g' & t' & E & N & T & ->)]]; [discriminate|].
    injection E as <- <-. rewrite Ts, <- L, nth_error_app2, Nat.sub_diag in N by lia. injection N as <-.
    apply tstep_inv in T. apply (IH (MkSys g' (set_nth (s_ts s) i t')) ts t' s'); [|exact L|exact (St _ _ _ _ _ C Pt T)|exact H].
    cbn. rewrite Ts, <- L. clear. induction ts; cbn; [reflexivity|f_equal; exact IHts].
Qed.
Lemma solo f s e t0 (P : srv -> thread -> Prop) chs s' : begin e = Some t0 -> P (s_srv s) t0 ->
  (forall g t ch g' t', g_crashed g = false -> P g t -> tcase f (me s) g t ch g' t' -> P g' t') ->
  alone f s e chs = Some s' -> exists t, s_ts s' = s_ts s ++ [t] /\ P (s_srv s') t.
Proof.
  intros B P0 St. unfold alone. cbn [srun]. destruct (sstep f s e) as [s1|] eqn:E; [|discriminate]. intros H.
  apply step_inv in E as [C [(u & Bu & ->)|(i & ch & u & g' & t' & -> & _)]]; [|discriminate].
  rewrite B in Bu. injection Bu as <-.
  apply (solo_steps f (me s) P St chs (MkSys (s_srv s) (s_ts s ++ [t0])) (s_ts s) t0); [reflexivity|reflexivity|exact P0|exact H].
Qed.

(* ---------- the state relative to that at the beginning ---------- *)
Record st (g0 g : srv) (se : nat -> option session) (lo : nat -> option nat) (r : registry) (evs : list event) : Prop := MkSt {
  st_sess : forall c, g_sess g c = se c;
  st_lock : forall c, g_lock g c = lo c;
  st_reg : g_reg g = r;
  st_log : g_log g = g_log g0 ++ evs }.
Lemma st_refl g : st g g (g_sess g) (g_lock g) (g_reg g) [].
Proof. split; auto. rewrite app_nil_r. reflexivity. Qed.
Lemma st_log_ev g0 g se lo r evs e : st g0 g se lo r evs -> st g0 (log e g) se lo r (evs ++ [e]).
Proof. intros [A B C D]. split; cbn; auto. rewrite D, app_assoc. reflexivity. Qed.
Lemma st_set_reg g0 g se lo r evs r' : st g0 g se lo r evs -> st g0 (set_reg r' g) se lo r' evs.
Proof. intros [A B C D]. split; cbn; auto. Qed.
Lemma st_set_lock g0 g se lo r evs c x : st g0 g se lo r evs -> st g0 (set_lock c x g) se (upd lo c x) r evs.
Proof. intros [A B C D]. split; cbn; auto. intros c'. unfold upd. destruct (c' =? c); auto. Qed.
Lemma st_set_sess g0 g se lo r evs c x : st g0 g se lo r evs -> st g0 (set_sess c x g) (upd se c x) lo r evs.
Proof. intros [A B C D]. split; cbn; auto. intros c'. unfold upd. destruct (c' =? c); auto. Qed.
(* taking and releasing a lock that was free *)
Lemma st_unlock g0 g se lo r evs c i : st g0 g se (upd lo c i) r evs -> lo c = None -> st g0 (set_lock c None g) se lo r evs.
Proof.
  intros [A B C D] F. split; cbn; auto. intros c'. unfold upd in *. destruct (Nat.eqb_spec c' c) as [->|Ne]; [auto|].
  rewrite B. destruct (Nat.eqb_spec c' c); [contradiction|reflexivity].
Qed.
Definition crashed_early (g : srv) (t : thread) : Prop := g_crashed g = true /\ finished t = false.

(* written frames *)
Lemma writes_written (F : forall W, writer_ops W -> W -> option (W * option werr)) b fails calls e :
  writes F b -> F _ (log_writer fails) [] = Some (calls, e) -> written b calls e.
Proof.
  intros (chunks & C & H) E. destruct (H fails []) as (e' & E' & Q). rewrite E in E'. injection E' as -> ->.
  exists fails, chunks. auto.
Qed.
Lemma created_written fails enc calls e : WriteMsgNotifySessionCreated (log_writer fails) [] enc = Some (calls, e) ->
  written (n2b 21 :: enc) calls e.
Proof. intros H. eapply (writes_written (fun W ops w => WriteMsgNotifySessionCreated ops w enc)); [apply created_writes|exact H]. Qed.
Lemma closed_written fails calls e : WriteMsgNotifySessionClosed (log_writer fails) [] = Some (calls, e) ->
  written [n2b 22] calls e.
Proof. intros H. eapply (writes_written (fun W ops w => WriteMsgNotifySessionClosed ops w)); [apply closed_writes|exact H]. Qed.

(* ---------- CreateSession ---------- *)
Section Create.
Variables (f : config) (s : sys) (c : nat) (info : blob).
Let g0 := s_srv s.
Let i := me s.
Let vars := if (info =? 0)%N then 0%N else f_vars f info.
Definition cjoin (r : registry) (k : key) (evs : list event) : Prop :=
  (has_room f s k /\ r = fst (register (f_max f) (g_reg g0) k c) /\ evs = [LJoin i c k]) \/
  (~ has_room f s k /\ r = g_reg g0 /\ evs = []).
Definition cP (p : cstate) (g : srv) : Prop :=
  let en := f_enabled f = true in
  let none := g_sess g0 c = None in
  let free := g_lock g0 c = None in
  let base evs := st g0 g (g_sess g0) (g_lock g0) (g_reg g0) evs in
  let lck se r evs := st g0 g se (upd (g_lock g0) c (Some i)) r evs in
  let made k now enc calls := k <> [] /\ f_json f k now now vars = Some enc /\ written (n2b 21 :: enc) calls None in
  match p with
  | CStart => base []
  | CLock => en /\ base []
  | CErr => en /\ base [] /\ g_sess g0 c <> None
  | CNew => en /\ none /\ free /\ lck (g_sess g0) (g_reg g0) []
  | CNote x => en /\ none /\ free /\ lck (g_sess g0) (g_reg g0) [] /\ exists k now, k <> [] /\ x = MkSession k now now info
  | CSet x => en /\ none /\ free /\ exists k now enc calls, x = MkSession k now now info /\ made k now enc calls /\
      lck (g_sess g0) (g_reg g0) [LNotifyCreated i c x enc calls]
  | CReg => en /\ none /\ free /\ exists k now enc calls, let x := MkSession k now now info in made k now enc calls /\
      lck (upd (g_sess g0) c (Some x)) (g_reg g0) [LNotifyCreated i c x enc calls]
  | CHook => en /\ none /\ exists k now enc calls r evs, let x := MkSession k now now info in made k now enc calls /\ cjoin r k evs /\
      st g0 g (upd (g_sess g0) c (Some x)) (g_lock g0) r (LNotifyCreated i c x enc calls :: evs)
  | CDone RNil => en /\ none /\ exists k now enc calls r evs, let x := MkSession k now now info in made k now enc calls /\ cjoin r k evs /\
      st g0 g (upd (g_sess g0) c (Some x)) (g_lock g0) r (LNotifyCreated i c x enc calls :: evs ++ [LCreated i c])
  | CDone RDisabled => f_enabled f = false /\ base []
  | CDone RDisconnected => en /\ base []
  | CDone RExists => en /\ g_sess g0 c <> None /\ base []
  | CDone RMarshal => en /\ none /\ base [] /\ exists k now, f_json f k now now vars = None
  | CDone RNoWriter => en /\ none /\ base []
  | CDone (RWrite e) => en /\ none /\ exists k now enc calls, f_json f k now now vars = Some enc /\
      written (n2b 21 :: enc) calls (Some e) /\ base [LNotifyCreated i c (MkSession k now now info) enc calls]
  end.
Lemma create_outline g t ch g' t' : g_crashed g = false ->
  crashed_early g t \/ (exists p, t = TCreate c info p /\ cP p g) -> tcase f i g t ch g' t' ->
  crashed_early g' t' \/ exists p, t' = TCreate c info p /\ cP p g'.
Proof.
  intros Nc [[Cr _]|(p & -> & Hp)] H; [congruence|]. inversion H; subst; clear H.
  match goal with X : ccase _ _ _ _ _ _ _ _ _ |- _ => inversion X; subst; clear X end; cbn [cP] in Hp;
    try (left; split; reflexivity); right; eexists; (split; [reflexivity|]); cbn [cP].
  - (* disabled *) auto.
  - auto.
  - auto.
  - (* exists *) destruct Hp as [A B]. split; [exact A|]. split; [exact B|]. rewrite <- (st_sess _ _ _ _ _ _ B c). congruence.
  - (* lock *) destruct Hp as [A B]. split; [exact A|]. split; [rewrite <- (st_sess _ _ _ _ _ _ B c); assumption|].
    split; [rewrite <- (st_lock _ _ _ _ _ _ B c); assumption|]. apply st_set_lock, B.
  - (* err *) tauto.
  - (* key *) destruct Hp as (A & B & C & D). repeat (split; [assumption|]). exists k, now. auto.
  - (* marshal *) destruct Hp as (A & B & C & D & k & now & Hk & ->). split; [exact A|]. split; [exact B|].
    split; [eapply st_unlock; eauto|]. exists k, now. assumption.
  - (* no writer *) destruct Hp as (A & B & C & D & k & now & Hk & ->). split; [exact A|]. split; [exact B|]. eapply st_unlock; eauto.
  - (* write error *) destruct Hp as (A & B & C & D & k & now & Hk & ->). split; [exact A|]. split; [exact B|].
    exists k, now, enc, calls. split; [assumption|]. split; [eapply created_written; eauto|].
    eapply st_unlock; [|exact C]. apply (st_log_ev _ _ _ _ _ []). exact D.
  - (* notified *) destruct Hp as (A & B & C & D & k & now & Hk & ->). repeat (split; [assumption|]).
    exists k, now, enc, calls. split; [reflexivity|]. split; [split; [exact Hk|split; [assumption|eapply created_written; eauto]]|].
    apply (st_log_ev _ _ _ _ _ []). exact D.
  - (* set *) destruct Hp as (A & B & C & k & now & enc & calls & -> & M & D). repeat (split; [assumption|]).
    exists k, now, enc, calls. split; [exact M|]. apply st_set_sess. exact D.
  - (* registered *) destruct Hp as (A & B & C & k & now & enc & calls & M & D). repeat (split; [assumption|]).
    assert (X : x = MkSession k now now info).
    { pose proof (st_sess _ _ _ _ _ _ D c) as Y. unfold upd in Y. rewrite Nat.eqb_refl in Y. congruence. }
    subst x. cbn in *. match goal with X : register _ _ _ _ = _ |- _ => rename X into Hr end. rewrite (st_reg _ _ _ _ _ _ D) in Hr.
    exists k, now, enc, calls, r, [LJoin i c k]. split; [exact M|]. split.
    + left. split; [|rewrite Hr; auto]. apply (register_room _ _ _ c). fold g0. rewrite Hr. reflexivity.
    + apply (st_log_ev _ _ _ _ _ [_]). eapply st_unlock; [|exact C]. eapply st_set_reg; exact D.
  - (* not registered *) destruct Hp as (A & B & C & k & now & enc & calls & M & D). repeat (split; [assumption|]).
    assert (X : x = MkSession k now now info).
    { pose proof (st_sess _ _ _ _ _ _ D c) as Y. unfold upd in Y. rewrite Nat.eqb_refl in Y. congruence. }
    subst x. cbn in *. match goal with X : register _ _ _ _ = _ |- _ => rename X into Hr end. rewrite (st_reg _ _ _ _ _ _ D) in Hr.
    exists k, now, enc, calls, r, []. split; [exact M|]. split.
    + right. pose proof (register_fails (f_max f) (g_reg g0) k c) as Y. rewrite Hr in Y. cbn in Y. rewrite Y by reflexivity.
      split; [|auto]. intros Rm. apply (register_room _ _ _ c) in Rm. fold g0 in Rm. rewrite Hr in Rm. discriminate.
    + eapply st_unlock; [|exact C]. eapply st_set_reg; exact D.
  - (* hook *) destruct Hp as (A & B & k & now & enc & calls & r & evs & M & J & D). repeat (split; [assumption|]).
    exists k, now, enc, calls, r, evs. split; [exact M|]. split; [exact J|].
    apply (st_log_ev _ _ _ _ _ (_ :: evs)). exact D.
Qed.
End Create.

Lemma base_untouched s s' evs : st (s_srv s) (s_srv s') (g_sess (s_srv s)) (g_lock (s_srv s)) (reg s) evs ->
  untouched s s' /\ slog s' = slog s ++ evs.
Proof. intros [A B C D]. unfold untouched, same_sessions, same_locks. auto. Qed.
Lemma set_is_set s s' c x r evs : st (s_srv s) (s_srv s') (upd (g_sess (s_srv s)) c x) (g_lock (s_srv s)) r evs -> session_set s s' c x.
Proof.
  intros [A B C D]. unfold session_set, same_locks. unfold upd in A. split; [rewrite A, Nat.eqb_refl; reflexivity|]. split; [|exact B].
  intros c' Ne. rewrite A. destruct (Nat.eqb_spec c' c); [contradiction|reflexivity].
Qed.
Lemma joined_register f s s' c k r : has_room f s k -> r = fst (register (f_max f) (reg s) k c) -> reg s' = r -> joined s s' c k.
Proof.
  intros Rm -> E c' k'. unfold listed, sessionConnections. rewrite E. apply (register_in (f_max f) (reg s) k c c' k').
  apply register_room, Rm.
Qed.
Lemma finished_not_early g t : finished t = true -> crashed_early g t -> False.
Proof. intros F [_ H]. congruence. Qed.

Theorem create_alone f s c info chs s' r : alone f s (EvCreate c info) chs = Some s' ->
  s_ts s' = s_ts s ++ [TCreate c info (CDone r)] -> create_outcome f s c info s' r.
Proof.
  intros H Ts.
  destruct (solo f s (EvCreate c info) (TCreate c info CStart) (fun g t => crashed_early g t \/ exists p, t = TCreate c info p /\ cP f s c info p g) chs s' eq_refl) as (t & Et & P).
  - right. exists CStart. split; [reflexivity|]. apply st_refl.
  - intros g t ch g' t' Nc Hp Hc. eapply create_outline; eauto.
  - exact H.
  - rewrite Ts in Et. apply app_inv_head in Et. injection Et as <-.
    destruct P as [P|(p & Ep & P)]; [exfalso; eapply finished_not_early; [|exact P]; reflexivity|]. injection Ep as <-.
    destruct r; cbn [cP] in P.
    + destruct P as (A & B & k & now & enc & calls & r & evs & (M1 & M2 & M3) & J & D).
      destruct J as [(J1 & J2 & ->)|(J1 & J2 & ->)].
      * eapply CO_created; eauto; [eapply set_is_set; eauto|eapply joined_register; eauto; apply D|apply D].
      * eapply CO_unlisted; eauto; [eapply set_is_set; eauto|rewrite (st_reg _ _ _ _ _ _ D); exact J2|apply D].
    + destruct P as [A B]. apply base_untouched in B as [B1 B2]. rewrite app_nil_r in B2. constructor; auto.
    + destruct P as [A B]. apply base_untouched in B as [B1 B2]. rewrite app_nil_r in B2. constructor; auto.
    + destruct P as (A & C & B). apply base_untouched in B as [B1 B2]. rewrite app_nil_r in B2. constructor; auto.
    + destruct P as (A & C & B & k & now & J). apply base_untouched in B as [B1 B2]. rewrite app_nil_r in B2. eapply CO_marshal; eauto.
    + destruct P as (A & C & B). apply base_untouched in B as [B1 B2]. rewrite app_nil_r in B2. constructor; auto.
    + destruct P as (A & C & k & now & enc & calls & J & Wr & B). apply base_untouched in B as [B1 B2]. eapply CO_write; eauto.
Qed.
