(* Sessions: destruction while nobody joins, crashes, progress, replies *)
From Coq Require Import List Arith NArith ZArith Lia Bool.
From Verif Require Import BaseBytes BaseConc ModelMessage ModelWrite ModelHandle ModelSession SpecSession.
From Verif Require Import ProofSession ProofSession2 ProofSession3.
Import ListNotations.
Open Scope nat_scope.

Local Arguments Nat.ltb : simpl never.
Local Arguments Nat.eqb : simpl never.
Local Arguments N.ltb : simpl never.
Local Arguments N.eqb : simpl never.
Local Arguments Z.leb : simpl never.
Local Arguments Z.eqb : simpl never.
Local Arguments Z.of_nat : simpl never.
Local Arguments register : simpl never.
Local Arguments deregister : simpl never.
Local Arguments map_set : simpl never.
Local Arguments map_del : simpl never.
Local Arguments map_get : simpl never.

(* ---------- destruction, nobody joining ---------- *)
Lemma deregister_sub r k c c' k' : inreg (fst (deregister r k c)) c' k' -> inreg r c' k'.
Proof.
  unfold deregister, inreg. destruct (lookup r k) as [set|] eqn:E; [|auto].
  destruct (Nat.ltb_spec (length set) 2) as [P|P]; cbn [fst].
  - rewrite (map_get_del _ beqb). destruct (beqb k k') as [<-|N]; [intros (l & [=] & _)|auto].
  - rewrite (map_get_set _ beqb). destruct (beqb k k') as [<-|N]; [|auto]. intros (l & [= <-] & I).
    apply set_del_In in I as [_ I]. eauto.
Qed.
Lemma deregister_zero max r k c r' : wf max r -> deregister r k c = (r', 0%Z) -> forall c', ~ inreg r' c' k.
Proof.
  intros W. unfold deregister. destruct (lookup r k) as [set|] eqn:E; [|discriminate].
  destruct (wf_sets _ _ W _ _ E) as (N1 & N2 & _).
  destruct (Nat.ltb_spec (length set) 2) as [P|P].
  - intros [= <-] c' (l & El & _). rewrite (map_get_del _ beqb), bytes_eqb_refl in El. discriminate.
  - intros [= <- H]. pose proof (set_del_length set c N1) as L.
    assert (b2i (existsb (Nat.eqb c) set) <= 1) by (destruct (existsb _ _); cbn; lia). lia.
Qed.
Lemma reg_grow f i g t ch g' t' : tcase f i g t ch g' t' -> forall c k, inreg (g_reg g') c k ->
  inreg (g_reg g) c k \/ (joining c t = true /\ exists x, g_sess g c = Some x /\ x_key x = k).
Proof.
  intros H c1 k1. tcases H; cbn; auto;
    try (match goal with X : deregister ?r ?k ?c = (?r', ?n) |- _ =>
           intros I; left; apply (deregister_sub r k c); rewrite X; exact I end);
    match goal with X : register ?m ?r ?k ?c = (?r', true) |- _ =>
           intros I; pose proof (register_in m r k c c1 k1) as Y; rewrite X in Y; cbn in Y; apply Y in I; [|reflexivity];
           destruct I as [[-> ->]|I]; [right; rewrite Nat.eqb_refl; eauto|auto]
         | X : register ?m ?r ?k ?c = (?r', false) |- _ =>
           pose proof (register_fails m r k c) as Y; rewrite X in Y; cbn in Y; rewrite Y by reflexivity; auto end.
Qed.
Lemma ends_effect f max i g t ch g' t' k : wf max (g_reg g) -> tcase f i g t ch g' t' -> ends (MkSys g' []) k t' = true ->
  forall c, ~ inreg (g_reg g') c k.
Proof.
  intros W H. tcases H; cbn [qdone] in *; try discriminate; unfold ends; cbn; try discriminate;
    repeat match goal with X : g_sess _ _ = _ |- _ => rewrite X in * end; try discriminate.
  all: destruct (beqb k (x_key x)) as [->|]; [intros _|discriminate].
  all: eapply deregister_zero; eauto.
Qed.
Lemma nobody_left f ok s : at_least f ok -> (forall s, ok s -> no_revival s) -> sreach f ok s ->
  forall i t k, nth_error (s_ts s) i = Some t -> ends s k t = true -> forall c, ~ listed s c k.
Proof.
  intros AL NR. revert s.
  apply (reach_ind f ok (fun s => forall i t k, nth_error (s_ts s) i = Some t -> ends s k t = true -> forall c, ~ listed s c k)).
  - intros i t k N. destruct i; discriminate.
  - intros s e t _ IH B _ i u k N E c I. apply nth_error_snoc_some in N as [N|[_ ->]].
    + eapply IH; eauto.
    + destruct e; cbn in B; try discriminate; injection B as <-; discriminate E.
  - intros s i ch t g' t' R IH _ N H _ j u k Nj E c I. apply tstep_inv in H. pose proof (reg_wf _ _ _ R) as W.
    assert (O : orderly f s) by (destruct R; [apply orderly_new|apply AL; assumption]).
    apply (set_nth_some _ _ _ _ N) in Nj as [[<- ->]|[D Nj]]; [eapply ends_effect; eauto|].
    assert (Eu : ends s k u = true).
    { rewrite <- E. unfold ends. cbn. destruct (ending u) as [c1|] eqn:Eu; [|reflexivity].
      destruct (sess_touch _ _ _ _ _ _ _ c1 H) as [->|T]; [reflexivity|].
      exfalso. eapply (touch_alone s i j t u c1); eauto; [eapply locks; eauto|apply O|apply ending_touch, Eu]. }
    apply (reg_grow _ _ _ _ _ _ _ H) in I as [I|(Jn & x & X & <-)]; [eapply IH; eauto|].
    assert (no_revival s) as V.
    { destruct R; [|apply NR; assumption]. intros a b ? ? ? ? Na. destruct a; discriminate. }
    eapply (V j i u t c); eauto. exists x. auto.
Qed.
Lemma destroy_ends f i g t ch g' t' j k : tcase f i g t ch g' t' -> g_log g' = g_log g ++ [LDestroy j k] ->
  j = i /\ ends (MkSys g []) k t = true.
Proof.
  intros H Lg. tcases H; cbn in Lg; try (exfalso; apply (app_self _ _ Lg)); apply app_last_inj in Lg; try discriminate Lg;
    injection Lg as <- <-; split; auto; unfold ends; cbn; match goal with X : g_sess _ _ = _ |- _ => rewrite X end; apply bytes_eqb_refl.
Qed.
Lemma destroy_alone f ok s e s' j k : at_least f ok -> (forall s, ok s -> no_revival s) -> sreach f ok s ->
  sstep f s e = Some s' -> slog s' = slog s ++ [LDestroy j k] ->
  (forall c, ~ listed s c k) /\ forall c, idle s c -> ~ has_key s c k.
Proof.
  intros AL NR R H Lg. apply step_inv in H as [Cr [(t & B & ->)|(i & ch & t & g' & t' & E & N & T & ->)]].
  { exfalso. cbn in Lg. apply (app_self _ _ Lg). }
  cbn in Lg. apply tstep_inv in T. destruct (destroy_ends _ _ _ _ _ _ _ _ _ T Lg) as [-> En].
  assert (X : forall c, ~ listed s c k) by (eapply nobody_left; eauto). split; [exact X|].
  intros c I K. apply (X c). eapply listed_iff; eauto.
Qed.

(* ---------- crashes ---------- *)
Definition must_some (c : nat) (t : thread) : bool :=
  wants_some c t || match t with TCreate c' _ CErr => c' =? c | _ => false end.
Lemma must_busy c t : must_some c t = true -> busy c t = true.
Proof.
  unfold must_some, wants_some, lsome, busy.
  destruct t as [c' info s|c' s|c' m s|c' m s|c' s|k s]; split_pc; cbn; try destruct (_ =? _); cbn; intuition discriminate.
Qed.
Lemma must_effect f i g t ch g' t' c : tcase f i g t ch g' t' -> must_some c t' = true ->
  g_sess g' c <> None \/ (must_some c t = true /\ g_sess g' c = g_sess g c).
Proof.
  intros H. unfold must_some. tcases H; cbn [qdone] in *; try discriminate; cbn; unfold upd;
    rewrite ?orb_false_r, ?andb_true_r, ?andb_false_r; intros E; try discriminate;
    eqs; rewrite ?Nat.eqb_refl; try (left; congruence); try (left; discriminate); try (right; auto; fail).
Qed.
Lemma touch_busy c t : touch c t = true -> busy c t = true.
Proof. unfold touch. intros T. apply orb_true_iff in T as [T|T]; [apply holds_busy, T|]. apply andb_true_iff in T. tauto. Qed.
Lemma exclusive_new : exclusive new_server.
Proof. intros i j t u c _ N. destruct i; discriminate. Qed.
Lemma never_nil f (ok : sys -> Prop) s : (forall s, ok s -> exclusive s) -> sreach f ok s ->
  forall i t c, nth_error (s_ts s) i = Some t -> must_some c t = true -> g_sess (s_srv s) c <> None.
Proof.
  intros Ex. revert s.
  apply (reach_ind f ok (fun s => forall i t c, nth_error (s_ts s) i = Some t -> must_some c t = true -> g_sess (s_srv s) c <> None)).
  - intros i t c N. destruct i; discriminate.
  - intros s e t _ IH B _ i u c N E. apply nth_error_snoc_some in N as [N|[_ ->]]; [eapply IH; eauto|].
    exfalso. destruct e; cbn in B; try discriminate; injection B as <-; unfold must_some in E; cbn in E; rewrite ?andb_false_r in E; discriminate.
  - intros s i ch t g' t' R IH _ N H _ j u c Nj E. apply tstep_inv in H. cbn [s_srv].
    assert (X : exclusive s) by (destruct R; [apply exclusive_new|apply Ex; assumption]).
    apply (set_nth_some _ _ _ _ N) in Nj as [[<- ->]|[D Nj]].
    + destruct (must_effect _ _ _ _ _ _ _ _ H E) as [Y|[Y ->]]; [exact Y|]. eapply IH; eauto.
    + destruct (sess_touch _ _ _ _ _ _ _ c H) as [->|T]; [eapply IH; eauto|].
      exfalso. eapply (X i j t u c); eauto; [apply touch_busy, T|apply must_busy, E].
Qed.

(* replies can always be written *)
Definition fine (a : answer) : bool :=
  match a with AOk _ => true | AFail (ENil | ESessDisabled | EMaxSessConns | ESessNotFound) => true | _ => false end.
Definition fine_thread (t : thread) : bool :=
  match t with TRestore _ _ (RRep a) | TClosure _ _ (XRep a) => fine a | _ => true end.
Lemma fine_effect f i g t ch g' t' : tcase f i g t ch g' t' -> fine_thread t = true -> fine_thread t' = true.
Proof. intros H. tcases H; cbn; auto. Qed.
Lemma fine_threads f ok s : sreach f ok s -> forall i t, nth_error (s_ts s) i = Some t -> fine_thread t = true.
Proof.
  revert s. apply (reach_ind f ok (fun s => forall i t, nth_error (s_ts s) i = Some t -> fine_thread t = true)).
  - intros i t N. destruct i; discriminate.
  - intros s e t _ IH B _ i u N. apply nth_error_snoc_some in N as [N|[_ ->]]; [eapply IH; eauto|].
    destruct e; cbn in B; try discriminate; injection B as <-; reflexivity.
  - intros s i ch t g' t' R IH _ N H _ j u Nj. apply tstep_inv in H.
    apply (set_nth_some _ _ _ _ N) in Nj as [[<- ->]|[D Nj]]; [|eapply IH; eauto]. eapply fine_effect; eauto.
Qed.
Section Total.
Context {W : Type} (ops : writer_ops W).
Lemma close_with_some w e e2 : close_with ops w e e2 <> None.
Proof. unfold close_with. destruct (w_close ops w). discriminate. Qed.
Lemma try_write_some b k w : (forall w, k w <> None) -> try_write ops b k w <> None.
Proof. intros H. unfold try_write. destruct (w_write ops w b) as [w1 [|]]; [apply close_with_some|apply H]. Qed.
Lemma close_end_some w : close_end ops w <> None.
Proof. unfold close_end. destruct (w_close ops w). discriminate. Qed.
Lemma special_some w t id : WriteMsgSpecialRequestReply ops w t id <> None.
Proof.
  unfold WriteMsgSpecialRequestReply. destruct (if beq t MsgReplyInternalError then _ else _); [|apply close_with_some].
  apply try_write_some. intros. apply try_write_some. apply close_end_some.
Qed.
Lemma reply_some w id e d : WriteMsgReply ops w id e d <> None.
Proof.
  unfold WriteMsgReply. destruct (_ && _); [apply close_with_some|]. apply try_write_some. intros. apply try_write_some. intros.
  destruct (_ =? _)%Z; repeat (apply try_write_some; intros); apply close_end_some.
Qed.
End Total.
Lemma used_some {W} (r : wresult (W := W)) : r <> None -> used r <> None.
Proof. destruct r as [[w e]|]; [discriminate|congruence]. Qed.
Lemma reply_fine m a w : fine a = true -> reply m a w <> None.
Proof.
  unfold reply. destruct a as [p|e].
  - intros _. destruct w as [h|]; [|discriminate]. unfold fulfillMsg. apply used_some, reply_some.
  - intros H. unfold failMsg. destruct (negb _); [discriminate|].
    destruct w as [h|]; [|discriminate]. destruct e; try discriminate; apply used_some, special_some.
Qed.

Lemma crash_effect f i g t ch g' t' : tcase f i g t ch g' t' -> g_crashed g = false -> g_crashed g' = true ->
  (exists c, must_some c t = true /\ g_sess g c = None) \/ ch = ChHook true \/ (exists now, ch = ChKey [] now) \/
  (exists c m enc x, t = TRestore c m (RReg enc) /\ g_sess g c = Some x /\ snd (register (f_max f) (g_reg g) (x_key x) c) = false) \/
  fine_thread t = false.
Proof.
  intros H C C'. tcases H; cbn in C'; try congruence; auto;
    try (left; exists c; split; [unfold must_some; cbn; rewrite ?Nat.eqb_refl; reflexivity|assumption]);
    try (right; right; left; eauto; fail);
    try (right; right; right; right; cbn; match goal with |- fine ?a = false => destruct (fine a) eqn:F; [exfalso; eapply reply_fine; eauto|reflexivity] end);
    try (right; right; right; left; exists c, m, enc, x; split; [reflexivity|]; split; [assumption|];
         match goal with X : register _ _ _ _ = _ |- _ => rewrite X; reflexivity end).
Qed.
Lemma crash_causes f (ok : sys -> Prop) s e s' : (forall s, ok s -> exclusive s /\ restores_join f s) -> sreach f ok s ->
  sstep f s e = Some s' -> g_crashed (s_srv s') = true -> fatal e.
Proof.
  intros Ok R H C'. apply step_inv in H as [Cr [(t & B & ->)|(i & ch & t & g' & t' & -> & N & T & ->)]]; [cbn in C'; congruence|].
  apply tstep_inv in T. cbn in C'.
  destruct (crash_effect _ _ _ _ _ _ _ T Cr C') as [(c & M & Z)|[->|[(now & ->)|[(c & m & enc & x & -> & X & Bad)|F]]]].
  - exfalso. refine (never_nil f ok s _ R i t c N M Z). intros s0 H0. apply (Ok s0 H0).
  - left. eauto.
  - right. eauto.
  - exfalso. assert (J : restores_join f s).
    { destruct R; [|apply Ok; assumption]. intros a ? ? ? ? Na. destruct a; discriminate. }
    pose proof (J _ _ _ _ _ N X) as Rm. apply (register_room _ _ _ c) in Rm. congruence.
  - exfalso. rewrite (fine_threads _ _ _ R _ _ N) in F. discriminate.
Qed.

(* ---------- progress ---------- *)
Definition good (ch : choice) : Prop := match ch with ChHook true => False | ChKey [] _ => False | _ => True end.
Lemma good_not_fatal i ch : good ch -> ~ fatal (EvStep i ch).
Proof. intros G [(j & [= _ ->])|(j & now & [= _ ->])]; exact G. Qed.
Lemma step_of f s i t ch r : good ch -> g_crashed (s_srv s) = false -> nth_error (s_ts s) i = Some t ->
  tstep f i (s_srv s) t ch = Some r -> can_step f s i.
Proof.
  intros G C N T. exists ch. unfold sstep. rewrite C, N, T. destruct r. eexists. split; [reflexivity|]. apply good_not_fatal, G.
Qed.
Lemma unlocked g c : g_lock g c = None -> locked g c = false.
Proof. unfold locked. intros ->. reflexivity. Qed.
Lemma dereg_can i g c b d : exists ch r, good ch /\ dereg_step i g c b d ch = Some r.
Proof.
  destruct d; [exists Go|exists Go|exists (ChHook false)]; cbn; destruct (g_sess g c); eauto.
  destruct (deregister _ _ _); eauto.
Qed.
Lemma close_can f i g c q : qdone q = false -> (lholds q = false -> g_lock g c = None) -> exists ch r, good ch /\ close_step f i g c q ch = Some r.
Proof.
  intros Q L. destruct q; try discriminate.
  - exists Go. cbn. eauto.
  - exists Go. cbn. rewrite unlocked by auto. destruct (g_sess g c); eauto.
  - destruct (dereg_can i g c true d) as (ch & [g' [d'|]] & Gd & E); exists ch; cbn; rewrite E; eauto.
  - exists Go. cbn. eauto.
  - exists (ChW None). cbn. eauto.
Qed.
Definition sane (t : thread) : bool := match t with TServer _ (SIn _ _ q _) => negb (qdone q) | _ => true end.
Lemma thread_can f i g t : sane t = true -> finished t = false ->
  (forall c, busy c t = true -> holdsL c t = false -> g_lock g c = None) -> exists ch r, good ch /\ tstep f i g t ch = Some r.
Proof.
  intros Sn F L. destruct t as [c info s|c s|c m s|c m s|c s|k s].
  - assert (X : exists ch r, good ch /\ create_step f i g c info s ch = Some r).
    { destruct s; try discriminate.
      - exists (ChSock true). cbn. eauto.
      - exists Go. cbn. rewrite unlocked by (apply L; [apply Nat.eqb_refl|reflexivity]). destruct (g_sess g c); eauto.
      - exists Go. cbn. destruct (g_sess g c); eauto.
      - exists (ChKey [x00] 0%Z). cbn. destruct (_ <? _); eauto.
      - exists (ChW None). cbn. destruct (f_json f _ _ _ _); eauto.
      - exists Go. cbn. eauto.
      - exists Go. cbn. destruct (g_sess g c); eauto. destruct (register _ _ _ _) as [? [|]]; eauto.
      - exists Go. cbn. eauto. }
    destruct X as (ch & [g' s'] & Gd & E). exists ch. cbn. rewrite E. eauto.
  - destruct (close_can f i g c s) as (ch & [g' s'] & Gd & E).
    + destruct s; try discriminate; reflexivity.
    + intros H. apply L; [destruct s; try discriminate; apply Nat.eqb_refl|]. cbn. rewrite H. apply andb_false_r.
    + exists ch. cbn. rewrite E. eauto.
  - assert (X : exists ch r, good ch /\ restore_step f i g c m s ch = Some r).
    { destruct s; try discriminate.
      - exists Go. cbn. eauto.
      - exists Go. cbn. eauto.
      - exists (ChLook LkNil). cbn. eauto.
      - exists Go. cbn. rewrite unlocked by (apply L; [apply Nat.eqb_refl|reflexivity]). eauto.
      - exists Go. cbn. destruct (g_sess g c); eauto. destruct (register _ _ _ _) as [? [|]]; eauto.
      - exists (ChW None). cbn [restore_step good]. destruct (reply m a None); eauto. }
    destruct X as (ch & [g' s'] & Gd & E). exists ch. cbn [tstep]. rewrite E. eauto.
  - assert (X : exists ch r, good ch /\ closure_step f i g c m s ch = Some r).
    { destruct s; try discriminate.
      - exists Go. cbn. eauto.
      - exists Go. cbn. rewrite unlocked by (apply L; [apply Nat.eqb_refl|reflexivity]). eauto.
      - destruct (dereg_can i g c true d) as (ch & [g' [d'|]] & Gd & E); exists ch; cbn; rewrite E; eauto.
      - exists Go. cbn. rewrite unlocked by (apply L; [apply Nat.eqb_refl|reflexivity]). eauto.
      - exists (ChW None). cbn [closure_step good]. destruct (reply m a None); eauto. }
    destruct X as (ch & [g' s'] & Gd & E). exists ch. cbn [tstep]. rewrite E. eauto.
  - assert (X : exists ch r, good ch /\ unlink_step i g c s ch = Some r).
    { destruct s; try discriminate.
      - destruct (dereg_can i g c false d) as (ch & [g' [d'|]] & Gd & E); exists ch; cbn; rewrite E; eauto.
      - exists Go. cbn. rewrite unlocked by (apply L; [apply Nat.eqb_refl|reflexivity]). eauto.
      - exists Go. cbn. eauto. }
    destruct X as (ch & [g' s'] & Gd & E). exists ch. cbn [tstep]. rewrite E. eauto.
  - assert (X : exists ch r, good ch /\ server_step f i g k s ch = Some r).
    { destruct s; try discriminate.
      - unfold server_step. destruct (sessionConnections (g_reg g) k) as [l|] eqn:E.
        + exists (ChOrder l).
          assert (S : same_elements l l = true); [|rewrite S; cbn; eauto].
          unfold same_elements. rewrite Nat.eqb_refl. cbn [andb].
          assert (Y : forallb (fun x => existsb (Nat.eqb x) l) l = true) by (apply forallb_forall; intros x I; apply existsb_In, I).
          rewrite Y. reflexivity.
        + exists (ChOrder []). cbn. eauto.
      - exists Go. destruct todo; cbn; eauto.
      - cbn in Sn. apply negb_true_iff in Sn. destruct (close_can f i g c q Sn) as (ch & [g' s'] & Gd & E).
        + intros H. apply L; [cbn; apply Nat.eqb_refl|]. cbn. rewrite H. apply andb_false_r.
        + exists ch. cbn. rewrite E. destruct s'; eauto. }
    destruct X as (ch & [g' s'] & Gd & E). exists ch. cbn [tstep]. rewrite E. eauto.
Qed.
Lemma sane_threads f ok s : sreach f ok s -> forall i t, nth_error (s_ts s) i = Some t -> sane t = true.
Proof.
  revert s. apply (reach_ind f ok (fun s => forall i t, nth_error (s_ts s) i = Some t -> sane t = true)).
  - intros i t N. destruct i; discriminate.
  - intros s e t _ IH B _ i u N. apply nth_error_snoc_some in N as [N|[_ ->]]; [eapply IH; eauto|].
    destruct e; cbn in B; try discriminate; injection B as <-; reflexivity.
  - intros s i ch t g' t' R IH _ N H _ j u Nj. apply tstep_inv in H.
    apply (set_nth_some _ _ _ _ N) in Nj as [[<- ->]|[D Nj]]; [|eapply IH; eauto].
    inversion H; subst; try reflexivity.
    match goal with X : scase _ _ _ _ _ _ _ _ |- _ => inversion X; subst; try reflexivity end.
    cbn. match goal with X : qdone _ = false |- _ => rewrite X; reflexivity end.
Qed.
Lemma holds_not_finished c t : holdsL c t = true -> finished t = false.
Proof. unfold holdsL, finished. destruct t as [c' info s|c' s|c' m s|c' m s|c' s|k s]; destruct s; cbn; try discriminate; rewrite ?andb_false_r; congruence. Qed.
Lemma holds_one c c' t : holdsL c t = true -> busy c' t = true -> c = c'.
Proof.
  unfold holdsL, busy. destruct t as [d info s|d s|d m s|d m s|d s|k s]; destruct s; cbn; try discriminate;
    rewrite ?andb_false_r; try discriminate; intros H1 H2; repeat match goal with X : _ && _ = true |- _ => apply andb_true_iff in X as [X _] end;
    apply Nat.eqb_eq in H1; apply Nat.eqb_eq in H2; congruence.
Qed.
Lemma progress f ok s i t : sreach f ok s -> g_crashed (s_srv s) = false -> nth_error (s_ts s) i = Some t -> finished t = false ->
  can_step f s i \/ exists j u c, i <> j /\ nth_error (s_ts s) j = Some u /\ busy c t = true /\ busy c u = true /\ can_step f s j.
Proof.
  intros R C N F. pose proof (locks _ _ _ R) as L.
  assert (X : (forall c, busy c t = true -> holdsL c t = false -> g_lock (s_srv s) c = None) \/
              exists c j, busy c t = true /\ holdsL c t = false /\ g_lock (s_srv s) c = Some j).
  { assert (B : exists c0, forall c, busy c t = true -> c = c0).
    { destruct t as [d info p|d p|d m p|d m p|d p|k p]; [exists d|exists d|exists d|exists d|exists d|exists (match p with SIn _ d _ _ => d | _ => 0 end)];
        destruct p; cbn; intros c1; try discriminate; intros H; apply Nat.eqb_eq in H; auto. }
    destruct B as (c0 & B). destruct (g_lock (s_srv s) c0) as [j|] eqn:E.
    - destruct (busy c0 t) eqn:Bu; [|left; intros c H; pose proof (B _ H); subst; congruence].
      destruct (holdsL c0 t) eqn:Ho; [left; intros c H; pose proof (B _ H); subst; congruence|]. right. eauto.
    - left. intros c H. pose proof (B _ H). subst. auto. }
  destruct X as [X|(c & j & Bu & Ho & E)].
  - left. destruct (thread_can f i (s_srv s) t) as (ch & r & Gd & T); auto; [eapply sane_threads; eauto|]. eapply step_of; eauto.
  - right. apply L in E as (u & Nu & Hu). exists j, u, c.
    assert (D : i <> j) by (intros <-; rewrite N in Nu; injection Nu as <-; congruence).
    split; [exact D|]. split; [exact Nu|]. split; [exact Bu|]. split; [apply holds_busy, Hu|].
    destruct (thread_can f j (s_srv s) u) as (ch & r & Gd & T).
    + eapply sane_threads; eauto.
    + eapply holds_not_finished; eauto.
    + intros c' B' H'. pose proof (holds_one _ _ _ Hu B'). subst. congruence.
    + eapply step_of; eauto.
Qed.

(* ---------- replies ---------- *)
Lemma reply_effect f i g t ch g' t' j : tcase f i g t ch g' t' ->
  count (reply_by j) (g_log g') + b2i ((i =? j) && replied t) = count (reply_by j) (g_log g) + b2i ((i =? j) && replied t').
Proof.
  intros H. tcases H; cbn; rewrite ?count_snoc; cbn; rewrite ?andb_false_r, ?andb_true_r; cbn; lia.
Qed.
Lemma replies f ok s : sreach f ok s -> forall i,
  count (reply_by i) (slog s) = match nth_error (s_ts s) i with Some t => b2i (replied t) | None => 0 end.
Proof.
  revert s. apply (reach_ind f ok (fun s => forall i, count (reply_by i) (slog s) = match nth_error (s_ts s) i with Some t => b2i (replied t) | None => 0 end)).
  - intros i. destruct i; reflexivity.
  - intros s e t _ IH B _ i. cbn [s_ts s_srv]. rewrite IH, nth_error_snoc.
    destruct (Nat.ltb_spec i (length (s_ts s))) as [P|P]; [reflexivity|].
    assert (nth_error (s_ts s) i = None) as -> by (apply nth_error_None; exact P). destruct (i =? length (s_ts s)); [|reflexivity].
    destruct e; cbn in B; try discriminate; injection B as <-; reflexivity.
  - intros s i ch t g' t' R IH _ N H _ j. apply tstep_inv in H. cbn [s_ts s_srv].
    pose proof (reply_effect _ _ _ _ _ _ _ j H) as E. destruct (Nat.eqb_spec i j) as [Q|D]; cbn [andb] in E.
    + subst j. rewrite (set_nth_eq _ _ _ _ N). specialize (IH i). rewrite N in IH. lia.
    + rewrite (set_nth_ne _ _ _ _ D). cbn [b2i] in E. specialize (IH j). lia.
Qed.
Lemma reply_owner_effect f i g t ch g' t' : tcase f i g t ch g' t' -> g_log g' = g_log g \/
  exists e, g_log g' = g_log g ++ [e] /\ forall j c m a st, e = LReply j c m a st -> j = i /\ (t' = TRestore c m RDone \/ t' = TClosure c m XDone).
Proof.
  intros H. tcases H; cbn; auto; right; eexists; (split; [reflexivity|]); intros; try discriminate;
    match goal with X : LReply _ _ _ _ _ = _ |- _ => injection X; intros; subst; auto end.
Qed.
Lemma replied_final f i g t ch g' t' : tcase f i g t ch g' t' -> replied t = true -> False.
Proof. intros H. tcases H; cbn; discriminate. Qed.
Lemma reply_owner f ok s : sreach f ok s -> forall i c m a st, In (LReply i c m a st) (slog s) ->
  nth_error (s_ts s) i = Some (TRestore c m RDone) \/ nth_error (s_ts s) i = Some (TClosure c m XDone).
Proof.
  revert s. apply (reach_ind f ok (fun s => forall i c m a st, In (LReply i c m a st) (slog s) ->
    nth_error (s_ts s) i = Some (TRestore c m RDone) \/ nth_error (s_ts s) i = Some (TClosure c m XDone))).
  - intros i c m a st [].
  - intros s e t _ IH B _ i c m a st I. cbn in *. apply IH in I. rewrite !nth_error_snoc_some. tauto.
  - intros s i ch t g' t' R IH _ N H _ j c m a st I. apply tstep_inv in H. cbn [s_ts s_srv] in *.
    assert (Old : In (LReply j c m a st) (slog s) ->
      nth_error (set_nth (s_ts s) i t') j = Some (TRestore c m RDone) \/ nth_error (set_nth (s_ts s) i t') j = Some (TClosure c m XDone)).
    { intros Io. apply IH in Io. destruct (Nat.eq_dec i j) as [<-|D]; [|rewrite (set_nth_ne _ _ _ _ D); exact Io].
      exfalso. rewrite N in Io. eapply replied_final; [exact H|]. destruct Io as [E|E]; injection E as ->; reflexivity. }
    destruct (reply_owner_effect _ _ _ _ _ _ _ H) as [E|(e & E & Q)]; rewrite E in I; [auto|].
    apply in_app_iff in I as [I|[I|[]]]; [auto|]. destruct (Q j c m a st I) as [-> X].
    rewrite (set_nth_eq _ _ _ _ N). destruct X as [X|X]; rewrite X; auto.
Qed.
