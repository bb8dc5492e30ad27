(* Sessions: Server.CloseSession when no other call interferes; replies on the wire *)
From Coq Require Import List Arith NArith ZArith Lia Bool.
From Verif Require Import BaseBytes BaseConc ModelMessage ModelWrite ModelHandle ModelSession.
From Verif Require Import SpecWire SpecMessage SpecWrite SpecHandle SpecSession.
From Verif Require Import ProofWrite ProofHandle ProofSession ProofSession2 ProofSession3 ProofSession4 ProofSession5 ProofSession6.
Import ListNotations.
Open Scope nat_scope.

Local Arguments Nat.ltb : simpl never.
Local Arguments Nat.eqb : simpl never.
Local Arguments N.ltb : simpl never.
Local Arguments N.eqb : simpl never.
Local Arguments Z.leb : simpl never.
Local Arguments Z.eqb : simpl never.
Local Arguments Z.of_nat : simpl never.
Local Arguments register : simpl never.
Local Arguments deregister : simpl never.
Local Arguments map_set : simpl never.
Local Arguments map_del : simpl never.
Local Arguments map_get : simpl never.
Local Arguments reply : simpl never.

(* ---------- without sessions ---------- *)
Definition asleep (t : thread) : bool :=
  match t with
  | TCreate _ _ (CStart | CDone _) | TClose _ (QStart | QDone _) | TRestore _ _ (RStart | RRep _ | RDone)
  | TClosure _ _ (XStart | XRep _ | XDone) | TUnlink _ (UDereg D0 | UNil | UClose | UDone) | TServer _ (SList | SDone _ _ _) => true
  | _ => false
  end.
Lemma disabled_effect f i g t ch g' t' : f_enabled f = false -> g_reg g = [] -> (forall c, g_sess g c = None) -> asleep t = true ->
  tcase f i g t ch g' t' -> g_reg g' = [] /\ (forall c, g_sess g' c = None) /\ asleep t' = true.
Proof.
  intros D R S A H. tcases H; cbn in *; try discriminate; try congruence; auto;
    try (match goal with X : g_sess g ?c = Some _ |- _ => rewrite S in X; discriminate end);
    try (split; [assumption|]; split; [|reflexivity]; intros c1; unfold upd; destruct (c1 =? _); auto; fail).
  match goal with X : sessionConnections _ _ = Some _ |- _ => rewrite R in X; discriminate end.
Qed.
Lemma disabled_empty f ok s : f_enabled f = false -> sreach f ok s ->
  reg s = [] /\ (forall c, g_sess (s_srv s) c = None) /\ forall i t, nth_error (s_ts s) i = Some t -> asleep t = true.
Proof.
  intros D. revert s. apply reach_ind.
  - split; [reflexivity|]. split; [reflexivity|]. intros i t N. destruct i; discriminate.
  - intros s e t _ (A & B & C) Bg _. split; [exact A|]. split; [exact B|]. intros i u N. cbn in N.
    apply nth_error_snoc_some in N as [N|[_ ->]]; [eauto|]. destruct e; cbn in Bg; try discriminate; injection Bg as <-; reflexivity.
  - intros s i ch t g' t' _ (A & B & C) _ N H _. apply tstep_inv in H. cbn [s_srv s_ts].
    destruct (disabled_effect _ _ _ _ _ _ _ D A B (C _ _ N) H) as (A' & B' & C'). split; [exact A'|]. split; [exact B'|].
    intros j u Nj. apply (set_nth_some _ _ _ _ N) in Nj as [[_ ->]|[_ Nj]]; eauto.
Qed.

(* ---------- Server.CloseSession ---------- *)
Lemma same_elements_spec l l' : same_elements l l' = true -> NoDup l' -> NoDup l /\ forall c, In c l <-> In c l'.
Proof.
  unfold same_elements. intros H N. apply andb_true_iff in H as [H H3]. apply andb_true_iff in H as [H1 H2].
  apply Nat.eqb_eq in H1. rewrite forallb_forall in H2, H3.
  assert (E : forall c, In c l <-> In c l') by (intros c; split; intros I; [apply existsb_In, H3, I|apply existsb_In, H2, I]).
  split; [|exact E]. apply (NoDup_incl_NoDup N); [lia|]. intros c I. apply E, I.
Qed.
Lemma forallb_snoc {A} p (l : list A) x : forallb p (l ++ [x]) = forallb p l && p x.
Proof. rewrite forallb_app. cbn. rewrite andb_true_r. reflexivity. Qed.

Section Server.
Variables (f : config) (s : sys) (k : key).
Let g0 := s_srv s.
Let i := me s.
Hypothesis En : f_enabled f = true.
Hypothesis W : wf (f_max f) (reg s).
Hypothesis Sound : forall c, inreg (reg s) c k -> exists x, g_sess g0 c = Some x /\ x_key x = k.

Record sD (done : list (nat * result)) (todo : list nat)
    (se : nat -> option session) (lo : nat -> option nat) (r : registry) (evs : list event) : Prop := MkSD {
  sd_nodup : NoDup (map fst done ++ todo);
  sd_all : forall c, In c (map fst done ++ todo) <-> inreg (reg s) c k;
  sd_sess_done : forall c, In c (map fst done) -> se c = None;
  sd_sess : forall c, ~ In c (map fst done) -> se c = g_sess g0 c;
  sd_lock : forall c, lo c = g_lock g0 c;
  sd_reg : forall c k', inreg r c k' <-> inreg (reg s) c k' /\ ~ (k' = k /\ In c (map fst done));
  sd_wf : wf (f_max f) r;
  sd_destroy : forall k', count (destroys k') evs =
    if bytes_eqb k k' && (0 <? length done) && (length todo =? 0) then 1 else 0;
  sd_notes : Forall (fun d => exists ev, closed_note i (fst d) ev (snd d) /\ incl ev evs) done }.

Lemma count_leave k' c x n : count (destroys k') (dleave i c true x n) = if bytes_eqb k' (x_key x) && (n =? 0)%Z then 1 else 0.
Proof.
  unfold dleave. cbn [count destroys andb]. destruct (n =? 0)%Z; cbn; [|rewrite andb_false_r; reflexivity].
  destruct (bytes_eqb k' (x_key x)); reflexivity.
Qed.
Lemma beq_sym a b : bytes_eqb a b = bytes_eqb b a.
Proof. destruct (beqb a b), (beqb b a); congruence. Qed.
Lemma note_count k' c more r : closed_note i c more r -> count (destroys k') more = 0.
Proof. destruct r; cbn; try tauto; try (intros (calls & -> & _)); try (intros ->); reflexivity. Qed.

(* one connection closed *)
Lemma sD_next done c todo se lo r evs x more rr r' n : sD done (c :: todo) se lo r evs -> se c = Some x ->
  closed_note i c more rr -> deregister r (x_key x) c = (r', n) ->
  sD (done ++ [(c, rr)]) todo (upd se c None) lo r' (evs ++ dleave i c true x n ++ more).
Proof.
  intros [Nd Al Sd Ss Lo Rg Wf De No] Sx Cn Dr.
  assert (Nc : ~ In c (map fst done)).
  { intros I. apply (NoDup_remove_2 _ _ _ Nd). apply in_or_app. auto. }
  assert (Kx : x_key x = k).
  { assert (I : inreg (reg s) c k) by (apply Al; apply in_or_app; right; left; reflexivity).
    destruct (Sound c I) as (y & Y & Ky). rewrite (Ss c Nc) in Sx. congruence. }
  rewrite Kx in *.
  assert (Ic : inreg r c k).
  { apply Rg. split; [apply Al; apply in_or_app; right; left; reflexivity|]. tauto. }
  assert (Wf' : wf (f_max f) r') by (pose proof (deregister_wf (f_max f) r k c Wf) as Y; rewrite Dr in Y; exact Y).
  pose proof (fun c' k' => deregister_in _ r k c c' k' Wf Ic) as Di. rewrite Dr in Di. cbn [fst] in Di.
  assert (Zn : n = 0%Z <-> todo = []).
  { split.
    - intros ->. destruct todo as [|c2 todo]; [reflexivity|]. exfalso.
      apply (deregister_zero _ _ _ _ _ Wf Dr c2). apply Di. split.
      + apply Rg. split; [apply Al; apply in_or_app; right; right; left; reflexivity|].
        intros [_ I]. apply NoDup_remove_1 in Nd. apply (NoDup_remove_2 _ _ _ Nd). apply in_or_app. auto.
      + intros [-> _]. apply (NoDup_remove_2 _ _ _ Nd). apply in_or_app. right. left. reflexivity.
    - intros ->. destruct (deregister_count _ _ _ _ Wf Ic) as [Cn1 Cn2]. rewrite Dr in Cn1, Cn2. cbn [fst snd] in *.
      destruct (Z.eqb_spec n 0) as [E|Ne]; [exact E|]. exfalso.
      unfold sessionConnectionsNum in Cn2. destruct (lookup r' k) as [l|] eqn:El.
      + destruct (wf_sets _ _ Wf' _ _ El) as (_ & Ne2 & _). destruct l as [|c2 l]; [congruence|].
        assert (I2 : inreg r' c2 k) by (exists (c2 :: l); split; [exact El|left; reflexivity]).
        apply Di in I2 as [I2 D2]. apply Rg in I2 as [I2 D3]. apply Al in I2. apply in_app_iff in I2 as [I2|[<-|[]]]; tauto.
      + unfold sessionConnectionsNum in Cn1. destruct (lookup r k) as [l|] eqn:E2; [|destruct Ic as (l & E3 & _); congruence].
        destruct Ic as (l2 & E3 & I3). assert (l2 = l) by congruence. subst l2. destruct l; [destruct I3|cbn in Cn1; lia]. }
  split.
  - rewrite map_app, <- app_assoc. exact Nd.
  - intros c'. rewrite map_app, <- app_assoc. apply Al.
  - intros c'. rewrite map_app, in_app_iff. cbn. unfold upd. destruct (Nat.eqb_spec c' c); [reflexivity|]. intros [I|[I|[]]]; [auto|congruence].
  - intros c'. rewrite map_app, in_app_iff. cbn. unfold upd. intros H. destruct (Nat.eqb_spec c' c) as [->|]; [tauto|]. apply Ss. tauto.
  - exact Lo.
  - intros c' k'. rewrite Di, Rg, map_app, in_app_iff. cbn. split; [intros [[A B] C]; split; [exact A|]; intros [-> [I|[->|[]]]]; tauto|].
    intros [A B]. split; [split; [exact A|tauto]|]. intros [-> ->]. tauto.
  - exact Wf'.
  - intros k'. rewrite !count_app, De, count_leave, (note_count _ _ _ _ Cn), Kx, app_length. cbn [length].
    rewrite (beq_sym k' k). destruct (bytes_eqb k k'); cbn [andb]; [|reflexivity].
    replace (S (length todo) =? 0) with false by (symmetry; apply Nat.eqb_neq; lia). rewrite andb_false_r.
    replace (0 <? length done + 1) with true by (symmetry; apply Nat.ltb_lt; lia). cbn [andb].
    destruct (Z.eqb_spec n 0) as [E|Ne].
    + apply Zn in E. subst todo. reflexivity.
    + destruct todo; [exfalso; apply Ne, Zn; reflexivity|]. reflexivity.
  - apply Forall_app. split.
    + eapply Forall_impl; [|exact No]. intros d (ev & C1 & C2). exists ev. split; [exact C1|]. intros e I. apply in_or_app. left. apply C2, I.
    + constructor; [|constructor]. exists more. split; [exact Cn|]. intros e I. apply in_or_app. right. apply in_or_app. right. exact I.
Qed.

Definition sP (p : sstate) (g : srv) : Prop :=
  match p with
  | SList => st g0 g (g_sess g0) (g_lock g0) (reg s) []
  | SLoop done todo => exists se lo r evs, sD done todo se lo r evs /\ st g0 g se lo r evs
  | SIn done c q todo => exists se lo r evs, sD done (c :: todo) se lo r evs /\ lP f i c g0 se lo r evs q g
  | SDone aff errs gen => exists done se lo r evs, sD done [] se lo r evs /\ st g0 g se lo r evs /\
      aff = map fst done /\ errs = map snd done /\
      gen = (let n := length (filter is_error (map snd done)) in if 0 <? n then Some n else None)
  end.
Lemma sD_empty : sessionConnections (reg s) k = None -> sD [] [] (g_sess g0) (g_lock g0) (reg s) [].
Proof.
  intros E. split; cbn; auto; try tauto.
  - constructor.
  - intros c. split; [tauto|]. intros (l & E2 & _). unfold sessionConnections in E. congruence.
  - intros k'. rewrite andb_false_r. reflexivity.
Qed.
Lemma server_outline g t ch g' t' : g_crashed g = false ->
  crashed_early g t \/ (exists p, t = TServer k p /\ sP p g) -> tcase f i g t ch g' t' ->
  crashed_early g' t' \/ exists p, t' = TServer k p /\ sP p g'.
Proof.
  intros Nc [[Cr _]|(p & -> & Hp)] H; [congruence|]. inversion H; subst; clear H.
  match goal with X : scase _ _ _ _ _ _ _ _ |- _ => inversion X; subst; clear X end; cbn [sP] in Hp.
  - right. eexists; split; [reflexivity|]. cbn [sP]. rewrite (st_reg _ _ _ _ _ _ Hp) in *.
    exists [], (g_sess g0), (g_lock g0), (reg s), []. split; [apply sD_empty; assumption|]. auto.
  - right. eexists; split; [reflexivity|]. cbn [sP]. rewrite (st_reg _ _ _ _ _ _ Hp) in *.
    exists (g_sess g0), (g_lock g0), (reg s), []. split; [|exact Hp].
    match goal with X : sessionConnections _ _ = Some ?l' |- _ => destruct (wf_sets _ _ W _ _ X) as (N1 & N2 & _); rename X into El end.
    match goal with X : same_elements _ _ = true |- _ => destruct (same_elements_spec _ _ X N1) as [Nl Il] end.
    split; cbn; auto; try tauto.
    + intros c. rewrite Il. split; [intros I; exists l'; auto|]. intros (l2 & E2 & I). unfold sessionConnections in El. congruence.
    + intros k'. rewrite andb_false_r. reflexivity.
  - destruct Hp as (se & lo & rg & evs & D & P). right. eexists; split; [reflexivity|]. exists se, lo, rg, evs. split; [exact D|exact P].
  - destruct Hp as (se & lo & rg & evs & D & P). right. eexists; split; [reflexivity|]. exists done, se, lo, rg, evs. auto.
  - destruct Hp as (se & lo & rg & evs & D & P).
    match goal with X : lcase _ _ _ _ _ _ _ _ |- _ => rename X into Hz end.
    apply (close_outline _ _ _ _ _ _ _ _ _ _ _ _ _ P) in Hz as [[X Q]|X]; [left; split; auto|].
    right. eexists; split; [reflexivity|]. exists se, lo, rg, evs. auto.
  - destruct Hp as (se & lo & rg & evs & D & P).
    match goal with X : lcase _ _ _ _ _ _ _ _ |- _ => rename X into Hz end.
    apply (close_outline _ _ _ _ _ _ _ _ _ _ _ _ _ P) in Hz as [[X Q]|X]; [discriminate Q|].
    right. eexists; split; [reflexivity|]. cbn [sP]. cbn [lP] in X.
    destruct X as [(X & _)|[(_ & X & _)|(_ & x & more & Sx & Cn & r' & n & Dr & P')]]; [congruence| |].
    + exfalso. assert (Nc' : ~ In c (map fst done)).
      { intros I. apply (NoDup_remove_2 _ _ _ (sd_nodup _ _ _ _ _ _ D)). apply in_or_app. auto. }
      rewrite (sd_sess _ _ _ _ _ _ D c Nc') in X. destruct (Sound c) as (y & Y & _); [|congruence].
      apply (sd_all _ _ _ _ _ _ D). apply in_or_app. right. left. reflexivity.
    + exists (upd se c None), lo, r', (evs ++ dleave i c true x n ++ more). split; [eapply sD_next; eauto|exact P'].
Qed.
End Server.

Lemma filter_count {A} (p : A -> bool) l : length (filter p l) = count p l.
Proof. induction l as [|a l IH]; cbn; [reflexivity|]. destruct (p a); cbn; lia. Qed.
Lemma existsb_count {A} (p : A -> bool) l : existsb p l = (0 <? count p l).
Proof.
  induction l as [|a l IH]; cbn; [reflexivity|]. rewrite IH. destruct (p a); cbn; [|reflexivity].
  symmetry. apply Nat.ltb_lt. lia.
Qed.
Theorem server_close_alone f ok s k chs s' aff errs gen : at_least f ok -> sreach f ok s -> quiet s ->
  alone f s (EvServerClose k) chs = Some s' -> s_ts s' = s_ts s ++ [TServer k (SDone aff errs gen)] ->
  server_close_outcome f s k s' aff errs gen.
Proof.
  intros AL R Q H Ts. pose proof (reg_wf _ _ _ R) as W.
  assert (Li : forall c k', inreg (reg s) c k' <-> has_key s c k') by (intros; eapply listed_iff; eauto; apply quiet_idle, Q).
  assert (P : exists p, TServer k (SDone aff errs gen) = TServer k p /\ sP f s k p (s_srv s')).
  { destruct (f_enabled f) eqn:En.
    - destruct (solo f s (EvServerClose k) (TServer k SList) (fun g t => crashed_early g t \/ exists p, t = TServer k p /\ sP f s k p g) chs s' eq_refl) as (t & Et & P).
      + right. exists SList. split; [reflexivity|]. apply st_refl.
      + intros g t ch g' t' Nc Hp Hc. eapply server_outline; eauto. intros c I. apply Li in I. exact I.
      + exact H.
      + rewrite Ts in Et. apply app_inv_head in Et. injection Et as <-.
        destruct P as [P|P]; [exfalso; eapply finished_not_early; [|exact P]; reflexivity|exact P].
    - destruct (disabled_empty f ok s En R) as (Re & Se & _).
      destruct (solo f s (EvServerClose k) (TServer k SList) (fun g t => g = s_srv s /\ (t = TServer k SList \/ t = TServer k (SDone [] [] None))) chs s' eq_refl) as (t & Et & P).
      + auto.
      + intros g t ch g' t' Nc [-> [->| ->]] Hc.
        * inversion Hc; subst; clear Hc. match goal with X : scase _ _ _ _ _ _ _ _ |- _ => inversion X; subst; clear X end; [auto|].
          match goal with X : sessionConnections _ _ = Some _ |- _ => rewrite Re in X; discriminate end.
        * inversion Hc; subst; clear Hc. match goal with X : scase _ _ _ _ _ _ _ _ |- _ => inversion X end.
      + exact H.
      + rewrite Ts in Et. apply app_inv_head in Et. injection Et as <-. destruct P as [Eg [E|E]]; [discriminate|].
        injection E as -> -> ->. eexists. split; [reflexivity|]. cbn [sP].
        exists [], (g_sess (s_srv s)), (g_lock (s_srv s)), (reg s), []. split; [|rewrite Eg; split; [apply st_refl|auto]].
        apply sD_empty; [exact W|]. rewrite Re. reflexivity. }
  destruct P as (p & Ep & P). injection Ep as <-. cbn [sP] in P.
  destruct P as (done & se & lo & r & evs & [Nd Al Sd Ss Lo Rg Wf De No] & P & -> & -> & ->). rewrite !app_nil_r in *.
  split.
  - split; [exact Nd|]. intros c. rewrite <- Li. rewrite <- Al. reflexivity.
  - rewrite !map_length. reflexivity.
  - cbv zeta. rewrite existsb_count, filter_count. reflexivity.
  - intros c I. rewrite (st_sess _ _ _ _ _ _ P). apply Sd, I.
  - intros c I. rewrite (st_sess _ _ _ _ _ _ P). apply Ss, I.
  - intros c. rewrite (st_lock _ _ _ _ _ _ P). apply Lo.
  - intros c k'. unfold listed at 1, sessionConnections. rewrite (st_reg _ _ _ _ _ _ P). rewrite (Rg c k').
    unfold listed, sessionConnections. fold (inreg (reg s) c k'). split; intros [A B]; (split; [exact A|]).
    + intros ->. apply B. split; [reflexivity|]. apply Al, A.
    + intros [-> _]. congruence.
  - exists evs. split; [apply P|]. split.
    + intros k'. rewrite De, map_length, andb_true_r. reflexivity.
    + clear - No. induction No as [|[c r] done H _ IH]; cbn; constructor; [exact H|exact IH].
Qed.

(* ---------- replies on the wire ---------- *)
Definition plain (a : answer) : bool :=
  match a with AOk (e, _) => negb (e =? Utf16)%Z | AFail (ENil | ESessDisabled | EMaxSessConns | ESessNotFound) => true | _ => false end.
Lemma reply_says m b cont a w sn : received m b cont -> wants_reply (k_type cont) -> plain a = true ->
  reply m a w = Some sn -> reply_sent (answer_content (k_ident cont) a) w sn.
Proof.
  intros Re Wt Pl E.
  assert (S : sends (fun W ops gw => match a with AOk p => @fulfillMsg W ops gw m p | AFail e => @failMsg W ops gw m e end)
                    (answer_content (k_ident cont) a)).
  { destruct a as [[e d]|e].
    - apply (fulfillMsg_sends m b cont (e, d) Re Wt). cbn. intros ->. discriminate.
    - destruct e; try discriminate; cbn [answer_content]; match goal with |- sends (fun _ _ _ => failMsg _ _ _ ?x) _ => exact (failMsg_sends m b cont x Re Wt I) end. }
  destruct S as [(fr & Wr & Rd & _) Nw]. unfold reply in E. destruct w as [fails|].
  - destruct Wr as (chunks & Cc & Wr). destruct (Wr fails []) as (e & Ew & Qe). cbn [app length] in Ew, Qe. unfold on_writer in Ew.
    exists fr, chunks, e. destruct a as [p|er]; rewrite E in Ew; destruct sn as [|w1 e1|]; try discriminate Ew; injection Ew as -> ->; auto.
  - cbn. specialize (Nw _ (log_writer (fun _ => false))). destruct a; rewrite Nw in E; congruence.
Qed.
