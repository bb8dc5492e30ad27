(* Invariants of the session model *)
From Coq Require Import List Arith NArith ZArith Lia Bool.
From Verif Require Import BaseBytes BaseConc ModelMessage ModelWrite ModelHandle ModelSession SpecSession.
Import ListNotations.
Open Scope nat_scope.

Local Arguments Nat.ltb : simpl never.
Local Arguments Nat.eqb : simpl never.
Local Arguments N.ltb : simpl never.
Local Arguments N.eqb : simpl never.
Local Arguments Z.leb : simpl never.
Local Arguments Z.eqb : simpl never.
Local Arguments Z.of_nat : simpl never.
Local Arguments register : simpl never.
Local Arguments deregister : simpl never.
Local Arguments map_set : simpl never.
Local Arguments map_del : simpl never.
Local Arguments map_get : simpl never.

Lemma beqb a b : reflect (a = b) (bytes_eqb a b).
Proof. apply bytes_eqb_spec. Qed.
Lemma bytes_eqb_refl a : bytes_eqb a a = true.
Proof. destruct (beqb a a); congruence. Qed.

(* ---------- sets and registry ---------- *)
Lemma existsb_In c l : existsb (Nat.eqb c) l = true <-> In c l.
Proof.
  rewrite existsb_exists. split.
  - intros (x & I & E). apply Nat.eqb_eq in E. subst. exact I.
  - intros I. exists c. split; [exact I|apply Nat.eqb_refl].
Qed.
Lemma set_add_In l c x : In x (set_add l c) <-> x = c \/ In x l.
Proof.
  unfold set_add. destruct (existsb (Nat.eqb c) l) eqn:E; cbn; [|intuition congruence].
  apply existsb_In in E. split; [auto|intros [->|H]; auto].
Qed.
Lemma set_add_NoDup l c : NoDup l -> NoDup (set_add l c).
Proof.
  intros H. unfold set_add. destruct (existsb (Nat.eqb c) l) eqn:E; [exact H|].
  constructor; [|exact H]. intros I. apply existsb_In in I. congruence.
Qed.
Lemma set_add_length l c : length (set_add l c) <= S (length l).
Proof. unfold set_add. destruct (existsb _ l); cbn; lia. Qed.
Lemma set_del_In l c x : In x (set_del l c) <-> x <> c /\ In x l.
Proof.
  unfold set_del. rewrite filter_In. destruct (Nat.eqb_spec c x) as [->|N]; cbn; split; intros H; intuition congruence.
Qed.
Lemma set_del_NoDup l c : NoDup l -> NoDup (set_del l c).
Proof. intros H. apply NoDup_filter. exact H. Qed.
Lemma set_del_length l c : NoDup l -> length (set_del l c) + b2i (existsb (Nat.eqb c) l) = length l.
Proof.
  induction l as [|a l IH]; intros H; [reflexivity|]. inversion H; subst. cbn [set_del filter existsb].
  fold (set_del l c). specialize (IH H3). destruct (Nat.eqb_spec c a) as [->|N]; cbn [negb orb].
  - cbn [length b2i]. destruct (existsb (Nat.eqb a) l) eqn:E; [apply existsb_In in E; contradiction|]. cbn in IH. lia.
  - cbn [length]. lia.
Qed.

Record wf (max : N) (r : registry) : Prop := MkWf {
  wf_keys : NoDup (map fst r);
  wf_sets : forall k l, lookup r k = Some l -> NoDup l /\ l <> [] /\ (max <> 0%N -> (N.of_nat (length l) <= max)%N) }.
Lemma wf_nil max : wf max [].
Proof. split; [constructor|discriminate]. Qed.

Lemma register_wf max r k c : wf max r -> wf max (fst (register max r k c)).
Proof.
  intros [K S]. unfold register. destruct (lookup r k) as [set|] eqn:E.
  - destruct (S _ _ E) as (N1 & N2 & N3).
    destruct (N.ltb_spec 0 max) as [P|P]; cbn [andb].
    + destruct (N.ltb_spec max (N.of_nat (length set + 1))) as [Q|Q]; [split; assumption|].
      split; [apply (map_set_NoDup _ beqb), K|]. cbn [fst]. intros k' l. rewrite (map_get_set _ beqb).
      destruct (beqb k k'); [intros [= <-]|apply S]. split; [apply set_add_NoDup, N1|]. split.
      * intros H. apply (f_equal (@In nat c)) in H. assert (In c (set_add set c)) by (apply set_add_In; auto). rewrite H in H0. destruct H0.
      * intros _. pose proof (set_add_length set c). lia.
    + split; [apply (map_set_NoDup _ beqb), K|]. cbn [fst]. intros k' l. rewrite (map_get_set _ beqb).
      destruct (beqb k k'); [intros [= <-]|apply S]. split; [apply set_add_NoDup, N1|]. split; [|lia].
      intros H. assert (H0 : In c (set_add set c)) by (apply set_add_In; auto). rewrite H in H0. destruct H0.
  - split; [apply (map_set_NoDup _ beqb), K|]. cbn [fst]. intros k' l. rewrite (map_get_set _ beqb).
    destruct (beqb k k'); [intros [= <-]|apply S]. split; [repeat constructor; auto|]. split; [discriminate|cbn; lia].
Qed.
Lemma deregister_wf max r k c : wf max r -> wf max (fst (deregister r k c)).
Proof.
  intros [K S]. unfold deregister. destruct (lookup r k) as [set|] eqn:E; [|split; assumption].
  destruct (S _ _ E) as (N1 & N2 & N3).
  destruct (Nat.ltb_spec (length set) 2) as [P|P]; cbn [fst].
  - split; [apply (map_del_NoDup _ beqb), K|]. intros k' l. rewrite (map_get_del _ beqb). destruct (beqb k k'); [discriminate|apply S].
  - split; [apply (map_set_NoDup _ beqb), K|]. intros k' l. rewrite (map_get_set _ beqb).
    destruct (beqb k k'); [intros [= <-]|apply S].
    pose proof (set_del_length set c N1). assert (b2i (existsb (Nat.eqb c) set) <= 1) by (destruct (existsb _ _); cbn; lia).
    split; [apply set_del_NoDup, N1|]. split.
    + intros Z. rewrite Z in H. cbn in H. lia.
    + intros M. specialize (N3 M). lia.
Qed.

(* membership *)
Definition inreg (r : registry) (c : nat) (k : key) : Prop := exists l, lookup r k = Some l /\ In c l.
Lemma register_in max r k c c' k' : snd (register max r k c) = true ->
  inreg (fst (register max r k c)) c' k' <-> (c' = c /\ k' = k) \/ inreg r c' k'.
Proof.
  unfold register, inreg. destruct (lookup r k) as [set|] eqn:E.
  - destruct (_ && _); [discriminate|]. intros _. cbn [fst]. rewrite (map_get_set _ beqb). destruct (beqb k k') as [<-|N].
    + rewrite E. split.
      * intros (l & [= <-] & I). apply set_add_In in I as [->|I]; [auto|right; exists set; auto].
      * intros [[-> _]|(l & [= <-] & I)]; exists (set_add set c); split; auto; apply set_add_In; auto.
    + split; [auto|]. intros [[_ ->]|H]; [congruence|exact H].
  - intros _. cbn [fst]. rewrite (map_get_set _ beqb). destruct (beqb k k') as [<-|N].
    + rewrite E. split; [intros (l & [= <-] & [->|[]]); auto|]. intros [[-> _]|(l & [=] & _)]. exists [c]. cbn. auto.
    + split; [auto|]. intros [[_ ->]|H]; [congruence|exact H].
Qed.
Lemma register_fails max r k c : snd (register max r k c) = false -> fst (register max r k c) = r.
Proof. unfold register. destruct (lookup r k); [destruct (_ && _)|]; cbn; congruence. Qed.
Lemma deregister_in max r k c c' k' : wf max r -> inreg r c k ->
  inreg (fst (deregister r k c)) c' k' <-> inreg r c' k' /\ ~ (c' = c /\ k' = k).
Proof.
  intros W (set & E & I). destruct (wf_sets _ _ W _ _ E) as (N1 & N2 & _).
  unfold deregister, inreg. rewrite E. destruct (Nat.ltb_spec (length set) 2) as [P|P]; cbn [fst].
  - rewrite (map_get_del _ beqb). destruct (beqb k k') as [<-|N].
    + rewrite E. split; [intros (l & E2 & _); discriminate E2|]. intros [(l & E2 & I') Hn]. injection E2 as <-. exfalso. apply Hn. split; [|reflexivity].
      destruct set as [|a [|b set]]; cbn in *; [tauto| |lia]. destruct I as [->|[]], I' as [->|[]]. reflexivity.
    + split; [intros H; split; [exact H|intros [_ ->]; congruence]|tauto].
  - rewrite (map_get_set _ beqb). destruct (beqb k k') as [<-|N].
    + rewrite E. split.
      * intros (l & [= <-] & I'). apply set_del_In in I' as [H1 H2]. split; [exists set; auto|tauto].
      * intros [(l & E2 & I') H]. injection E2 as <-. exists (set_del set c). split; [reflexivity|]. apply set_del_In. split; [|exact I'].
        intros ->. apply H. auto.
    + split; [intros H; split; [exact H|intros [_ ->]; congruence]|tauto].
Qed.
(* the number returned is the number of connections left *)
Lemma deregister_count max r k c : wf max r -> inreg r c k ->
  sessionConnectionsNum r k = (snd (deregister r k c) + 1)%Z /\
  sessionConnectionsNum (fst (deregister r k c)) k = if (snd (deregister r k c) =? 0)%Z then (-1)%Z else snd (deregister r k c).
Proof.
  intros W (set & E & I). destruct (wf_sets _ _ W _ _ E) as (N1 & N2 & _).
  pose proof (set_del_length set c N1) as L. replace (existsb (Nat.eqb c) set) with true in L by (symmetry; apply existsb_In, I).
  unfold deregister, sessionConnectionsNum. rewrite E. cbn [b2i] in L. destruct (Nat.ltb_spec (length set) 2) as [P|P]; cbn [fst snd].
  - split; [destruct set; [destruct I|cbn [length] in *; lia]|]. rewrite (map_get_del _ beqb), bytes_eqb_refl. reflexivity.
  - rewrite (map_get_set _ beqb), bytes_eqb_refl. split; [lia|]. destruct (Z.eqb_spec (Z.of_nat (length (set_del set c))) 0); lia.
Qed.

(* ---------- steps ---------- *)
Lemma step_inv f s e s' : sstep f s e = Some s' -> g_crashed (s_srv s) = false /\
  ((exists t, begin e = Some t /\ s' = MkSys (s_srv s) (s_ts s ++ [t])) \/
   (exists i ch t g' t', e = EvStep i ch /\ nth_error (s_ts s) i = Some t /\ tstep f i (s_srv s) t ch = Some (g', t') /\
      s' = MkSys g' (set_nth (s_ts s) i t'))).
Proof.
  unfold sstep. destruct (g_crashed (s_srv s)); [discriminate|]. intros H. split; [reflexivity|].
  destruct e; cbn [begin] in H; try (injection H as <-; left; eexists; split; reflexivity).
  right. destruct (nth_error (s_ts s) i) as [t|] eqn:N; [|discriminate].
  destruct (tstep f i (s_srv s) t ch) as [[g' t']|] eqn:T; [|discriminate]. injection H as <-.
  exists i, ch, t, g', t'. auto.
Qed.

(* an induction principle: invariants of all steps of threads *)
Lemma reach_ind f ok (P : sys -> Prop) :
  P new_server ->
  (forall s e t, sreach f ok s -> P s -> begin e = Some t -> ok (MkSys (s_srv s) (s_ts s ++ [t])) -> P (MkSys (s_srv s) (s_ts s ++ [t]))) ->
  (forall s i ch t g' t', sreach f ok s -> P s -> g_crashed (s_srv s) = false -> nth_error (s_ts s) i = Some t ->
     tstep f i (s_srv s) t ch = Some (g', t') -> ok (MkSys g' (set_nth (s_ts s) i t')) -> P (MkSys g' (set_nth (s_ts s) i t'))) ->
  forall s, sreach f ok s -> P s.
Proof.
  intros H0 H1 H2 s R. induction R as [|s e s' R IH H Ok]; [exact H0|].
  apply step_inv in H as [C [(t & B & ->)|(i & ch & t & g' & t' & -> & N & T & ->)]]; eauto.
Qed.

(* an invariant of single threads and the server state *)
Ltac inv_pair H := injection H as <- <-.

(* the cases of deregistering *)
Inductive dcase (i : nat) (g : srv) (c : nat) (destroy : bool) : dstate -> choice -> srv -> option dstate -> Prop :=
| Dc_nil : g_sess g c = None -> dcase i g c destroy D0 Go g None
| Dc_some x : g_sess g c = Some x -> dcase i g c destroy D0 Go g (Some D1)
| Dc_crash1 : g_sess g c = None -> dcase i g c destroy D1 Go (crash g) (Some D1)
| Dc_last x r : g_sess g c = Some x -> deregister (g_reg g) (x_key x) c = (r, 0%Z) -> destroy = true ->
    dcase i g c destroy D1 Go (log (LLeave i c (x_key x) destroy 0) (set_reg r g)) (Some D2)
| Dc_left x r n : g_sess g c = Some x -> deregister (g_reg g) (x_key x) c = (r, n) -> n <> 0%Z \/ destroy = false ->
    dcase i g c destroy D1 Go (log (LLeave i c (x_key x) destroy n) (set_reg r g)) None
| Dc_crash2 b : g_sess g c = None -> dcase i g c destroy D2 (ChHook b) (crash g) (Some D2)
| Dc_destroy x : g_sess g c = Some x -> dcase i g c destroy D2 (ChHook false) (log (LDestroy i (x_key x)) g) None
| Dc_panic x : g_sess g c = Some x -> dcase i g c destroy D2 (ChHook true) (crash (log (LDestroy i (x_key x)) g)) None.
Lemma dereg_inv i g c destroy d ch g' d' : dereg_step i g c destroy d ch = Some (g', d') -> dcase i g c destroy d ch g' d'.
Proof.
  unfold dereg_step. destruct d, ch; try discriminate; destruct (g_sess g c) as [x|] eqn:E; intros H.
  - inv_pair H. eapply Dc_some; eauto.
  - inv_pair H. constructor; auto.
  - destruct (deregister (g_reg g) (x_key x) c) as [r n] eqn:D. destruct (Z.eqb_spec n 0) as [->|N]; cbn [andb] in H.
    + destruct destroy; inv_pair H; [eapply Dc_last|eapply Dc_left]; eauto.
    + inv_pair H. eapply Dc_left; eauto.
  - inv_pair H. constructor; auto.
  - destruct panics; inv_pair H; econstructor; eauto.
  - inv_pair H. constructor; auto.
Qed.

Section Cases.
Variables (f : config) (i : nat) (g : srv).
Section Conn.
Variable (c : nat).
Inductive ccase (info : blob) : cstate -> choice -> srv -> cstate -> Prop :=
| Cc_disabled b : f_enabled f = false -> ccase info CStart (ChSock b) g (CDone RDisabled)
| Cc_disconnected : f_enabled f = true -> ccase info CStart (ChSock false) g (CDone RDisconnected)
| Cc_start : f_enabled f = true -> ccase info CStart (ChSock true) g CLock
| Cc_exists x : g_lock g c = None -> g_sess g c = Some x -> ccase info CLock Go g CErr
| Cc_lock : g_lock g c = None -> g_sess g c = None -> ccase info CLock Go (set_lock c (Some i) g) CNew
| Cc_crash_err : g_sess g c = None -> ccase info CErr Go (crash g) CErr
| Cc_err x : g_sess g c = Some x -> ccase info CErr Go g (CDone RExists)
| Cc_crash_key now : ccase info CNew (ChKey [] now) (crash g) CNew
| Cc_key k now : k <> [] -> ccase info CNew (ChKey k now) g (CNote (MkSession k now now info))
| Cc_marshal x w : f_json f (x_key x) (x_creation x) (x_last x) (if (info =? 0)%N then 0%N else f_vars f info) = None ->
    ccase info (CNote x) (ChW w) (set_lock c None g) (CDone RMarshal)
| Cc_nowriter x enc : f_json f (x_key x) (x_creation x) (x_last x) (if (info =? 0)%N then 0%N else f_vars f info) = Some enc ->
    ccase info (CNote x) (ChW None) (set_lock c None g) (CDone RNoWriter)
| Cc_write x enc fails calls e :
    f_json f (x_key x) (x_creation x) (x_last x) (if (info =? 0)%N then 0%N else f_vars f info) = Some enc ->
    WriteMsgNotifySessionCreated (SpecWrite.log_writer fails) [] enc = Some (calls, Some e) ->
    ccase info (CNote x) (ChW (Some fails)) (set_lock c None (log (LNotifyCreated i c x enc calls) g)) (CDone (RWrite e))
| Cc_notified x enc fails calls :
    f_json f (x_key x) (x_creation x) (x_last x) (if (info =? 0)%N then 0%N else f_vars f info) = Some enc ->
    WriteMsgNotifySessionCreated (SpecWrite.log_writer fails) [] enc = Some (calls, None) ->
    ccase info (CNote x) (ChW (Some fails)) (log (LNotifyCreated i c x enc calls) g) (CSet x)
| Cc_set x : ccase info (CSet x) Go (set_sess c (Some x) g) CReg
| Cc_crash_reg : g_sess g c = None -> ccase info CReg Go (crash g) CReg
| Cc_reg x r : g_sess g c = Some x -> register (f_max f) (g_reg g) (x_key x) c = (r, true) ->
    ccase info CReg Go (log (LJoin i c (x_key x)) (set_lock c None (set_reg r g))) CHook
| Cc_noreg x r : g_sess g c = Some x -> register (f_max f) (g_reg g) (x_key x) c = (r, false) ->
    ccase info CReg Go (set_lock c None (set_reg r g)) CHook
| Cc_hook : ccase info CHook Go (log (LCreated i c) g) (CDone RNil).
Lemma locked_none : locked g c = false -> g_lock g c = None.
Proof. unfold locked. destruct (g_lock g c); [discriminate|reflexivity]. Qed.
Lemma created_some fails l enc : WriteMsgNotifySessionCreated (SpecWrite.log_writer fails) l enc <> None.
Proof.
  unfold WriteMsgNotifySessionCreated, try_write, close_end, close_with. cbn.
  destruct (fails (length l)); cbn; [destruct (fails _); discriminate|].
  destruct (fails _); cbn; [destruct (fails _); discriminate|]. destruct (fails _); discriminate.
Qed.
Lemma closed_some fails l : WriteMsgNotifySessionClosed (SpecWrite.log_writer fails) l <> None.
Proof.
  unfold WriteMsgNotifySessionClosed, try_write, close_end, close_with. cbn.
  destruct (fails (length l)); cbn; destruct (fails _); discriminate.
Qed.
Lemma create_inv info s ch g' s' : create_step f i g c info s ch = Some (g', s') -> ccase info s ch g' s'.
Proof.
  unfold create_step. destruct s, ch; try discriminate.
  - destruct (f_enabled f) eqn:E; cbn [negb]; intros H; [destruct connected|]; inv_pair H; constructor; auto.
  - destruct (locked g c) eqn:L; [discriminate|]. apply locked_none in L.
    destruct (g_sess g c) eqn:E; intros H; inv_pair H; econstructor; eauto.
  - destruct (g_sess g c) eqn:E; intros H; inv_pair H; econstructor; eauto.
  - destruct k as [|b k].
    + change (length (@nil Init.Byte.byte) <? 1) with true. intros H; inv_pair H. constructor.
    + destruct (Nat.ltb_spec (length (b :: k)) 1) as [L|L]; [cbn in L; lia|]. intros H; inv_pair H. constructor. discriminate.
  - destruct (f_json f _ _ _ _) as [enc|] eqn:J; [|intros H; inv_pair H; constructor; auto].
    destruct w as [fails|]; [|intros H; inv_pair H; econstructor; eauto].
    destruct (WriteMsgNotifySessionCreated _ _ _) as [[calls [e|]]|] eqn:W; intros H.
    + inv_pair H. econstructor; eauto.
    + inv_pair H. econstructor; eauto.
    + exfalso. apply (created_some _ _ _ W).
  - intros H; inv_pair H. constructor.
  - destruct (g_sess g c) as [x|] eqn:E; [|intros H; inv_pair H; constructor; auto].
    destruct (register (f_max f) (g_reg g) (x_key x) c) as [r [|]] eqn:R; intros H; inv_pair H; econstructor; eauto.
  - intros H; inv_pair H. constructor.
Qed.

Inductive lcase : lstate -> choice -> srv -> lstate -> Prop :=
| Lc_disabled : f_enabled f = false -> lcase QStart Go g (QDone RDisabled)
| Lc_start : f_enabled f = true -> lcase QStart Go g QLock
| Lc_none : g_lock g c = None -> g_sess g c = None -> lcase QLock Go g (QDone RNil)
| Lc_lock x : g_lock g c = None -> g_sess g c = Some x -> lcase QLock Go (set_lock c (Some i) g) (QDereg D0)
| Lc_dereg d ch g' d' : dcase i g c true d ch g' (Some d') -> lcase (QDereg d) ch g' (QDereg d')
| Lc_deregd d ch g' : dcase i g c true d ch g' None -> lcase (QDereg d) ch g' QNil
| Lc_nil : lcase QNil Go (set_lock c None (set_sess c None g)) QNote
| Lc_nowriter : lcase QNote (ChW None) g (QDone RNoWriter)
| Lc_note fails calls e : WriteMsgNotifySessionClosed (SpecWrite.log_writer fails) [] = Some (calls, e) ->
    lcase QNote (ChW (Some fails)) (log (LNotifyClosed i c calls) g) (QDone (match e with Some e => RWrite e | None => RNil end)).
Lemma close_inv s ch g' s' : close_step f i g c s ch = Some (g', s') -> lcase s ch g' s'.
Proof.
  unfold close_step. destruct s.
  - destruct ch; try discriminate. destruct (f_enabled f) eqn:E; cbn [negb]; intros H; inv_pair H; constructor; auto.
  - destruct ch; try discriminate. destruct (locked g c) eqn:L; [discriminate|]. apply locked_none in L.
    destruct (g_sess g c) eqn:E; intros H; inv_pair H; econstructor; eauto.
  - destruct (dereg_step i g c true d ch) as [[g1 [d1|]]|] eqn:D; [| |discriminate]; intros H; inv_pair H; apply dereg_inv in D; constructor; auto.
  - destruct ch; try discriminate. intros H; inv_pair H. constructor.
  - destruct ch; try discriminate. destruct w as [fails|]; [|intros H; inv_pair H; constructor].
    destruct (WriteMsgNotifySessionClosed _ _) as [[calls e]|] eqn:W; intros H; [|exfalso; apply (closed_some _ _ W)].
    inv_pair H. constructor; auto.
  - destruct ch; discriminate.
Qed.

Definition parsed (info : blob) : blob :=
  match f_parse f with Some p => if (info =? 0)%N then 0%N else p info | None => 0%N end.
Inductive rcase (m : message) : rstate -> choice -> srv -> rstate -> Prop :=
| Rc_disabled : f_enabled f = false -> rcase m RStart Go g (RRep (AFail ESessDisabled))
| Rc_start : f_enabled f = true -> rcase m RStart Go g RCount
| Rc_full n : sessionConnectionsNum (g_reg g) (payload_of m) = n -> (0 <= n)%Z -> f_max f <> 0%N -> (Z.of_N (f_max f) <= n)%Z ->
    rcase m RCount Go g (RRep (AFail EMaxSessConns))
| Rc_room n : sessionConnectionsNum (g_reg g) (payload_of m) = n -> (f_max f = 0%N \/ (n < Z.of_N (f_max f))%Z) ->
    rcase m RCount Go g RLook
| Rc_lookerr : rcase m RLook (ChLook LkErr) (log (LLookup i (payload_of m) LkErr) g) (RRep (AFail ENil))
| Rc_looknil : rcase m RLook (ChLook LkNil) (log (LLookup i (payload_of m) LkNil) g) (RRep (AFail ESessNotFound))
| Rc_marshal cr la info : f_json f (payload_of m) cr la info = None ->
    rcase m RLook (ChLook (LkFound cr la info)) (log (LLookup i (payload_of m) (LkFound cr la info)) g) (RRep (AFail ENil))
| Rc_found cr la info enc : f_json f (payload_of m) cr la info = Some enc ->
    rcase m RLook (ChLook (LkFound cr la info)) (log (LLookup i (payload_of m) (LkFound cr la info)) g)
          (RSet (MkSession (payload_of m) cr la (parsed info)) enc)
| Rc_set x enc : g_lock g c = None -> rcase m (RSet x enc) Go (set_sess c (Some x) g) (RReg enc)
| Rc_crash_nil enc : g_sess g c = None -> rcase m (RReg enc) Go (crash g) (RReg enc)
| Rc_crash_full enc x r : g_sess g c = Some x -> register (f_max f) (g_reg g) (x_key x) c = (r, false) ->
    rcase m (RReg enc) Go (crash g) (RReg enc)
| Rc_reg enc x r : g_sess g c = Some x -> register (f_max f) (g_reg g) (x_key x) c = (r, true) ->
    rcase m (RReg enc) Go (log (LJoin i c (x_key x)) (set_reg r g)) (RRep (AOk (Utf8, enc)))
| Rc_crash_rep a w : reply m a w = None -> rcase m (RRep a) (ChW w) (crash g) (RRep a)
| Rc_rep a w st : reply m a w = Some st -> rcase m (RRep a) (ChW w) (log (LReply i c m a st) g) RDone.
Lemma restore_inv m s ch g' s' : restore_step f i g c m s ch = Some (g', s') -> rcase m s ch g' s'.
Proof.
  unfold restore_step. cbv zeta. destruct s, ch; try discriminate.
  - destruct (f_enabled f) eqn:E; cbn [negb]; intros H; inv_pair H; constructor; auto.
  - intros H; inv_pair H. remember (sessionConnectionsNum (g_reg g) (payload_of m)) as n eqn:En. symmetry in En.
    assert (B : (-1 <= n)%Z) by (subst n; unfold sessionConnectionsNum; destruct (lookup _ _); lia).
    destruct (Z.leb_spec 0 n); cbn [andb]; [|eapply Rc_room; [exact En|lia]].
    destruct (N.ltb_spec 0 (f_max f)); cbn [andb]; [|eapply Rc_room; [exact En|lia]].
    destruct (N.ltb_spec (f_max f) (Z.to_N (n + 1))); [eapply Rc_full|eapply Rc_room]; try exact En; lia.
  - destruct r; [intros H; inv_pair H; constructor..|]. destruct (f_json f _ _ _ _) eqn:J; intros H; inv_pair H; constructor; auto.
  - destruct (locked g c) eqn:L; [discriminate|]. apply locked_none in L. intros H; inv_pair H. constructor; auto.
  - destruct (g_sess g c) as [x|] eqn:E; [|intros H; inv_pair H; constructor; auto].
    destruct (register (f_max f) (g_reg g) (x_key x) c) as [r [|]] eqn:R; intros H; inv_pair H; [eapply Rc_reg|eapply Rc_crash_full]; eauto.
  - destruct (reply m a w) eqn:E; intros H; inv_pair H; econstructor; eauto.
Qed.

Inductive xcase (m : message) : xstate -> choice -> srv -> xstate -> Prop :=
| Xc_disabled : f_enabled f = false -> xcase m XStart Go g (XRep (AFail ESessDisabled))
| Xc_start : f_enabled f = true -> xcase m XStart Go g XHas
| Xc_none : g_lock g c = None -> g_sess g c = None -> xcase m XHas Go g (XRep (AOk (Binary, [])))
| Xc_has x : g_lock g c = None -> g_sess g c = Some x -> xcase m XHas Go g (XDereg D0)
| Xc_dereg d ch g' d' : dcase i g c true d ch g' (Some d') -> xcase m (XDereg d) ch g' (XDereg d')
| Xc_deregd d ch g' : dcase i g c true d ch g' None -> xcase m (XDereg d) ch g' XNil
| Xc_nil : g_lock g c = None -> xcase m XNil Go (set_sess c None g) (XRep (AOk (Binary, [])))
| Xc_crash_rep a w : reply m a w = None -> xcase m (XRep a) (ChW w) (crash g) (XRep a)
| Xc_rep a w st : reply m a w = Some st -> xcase m (XRep a) (ChW w) (log (LReply i c m a st) g) XDone.
Lemma closure_inv m s ch g' s' : closure_step f i g c m s ch = Some (g', s') -> xcase m s ch g' s'.
Proof.
  unfold closure_step. destruct s.
  - destruct ch; try discriminate. destruct (f_enabled f) eqn:E; cbn [negb]; intros H; inv_pair H; constructor; auto.
  - destruct ch; try discriminate. destruct (locked g c) eqn:L; [discriminate|]. apply locked_none in L.
    destruct (g_sess g c) eqn:E; intros H; inv_pair H; econstructor; eauto.
  - destruct (dereg_step i g c true d ch) as [[g1 [d1|]]|] eqn:D; [| |discriminate]; intros H; inv_pair H; apply dereg_inv in D; constructor; auto.
  - destruct ch; try discriminate. destruct (locked g c) eqn:L; [discriminate|]. apply locked_none in L. intros H; inv_pair H. constructor; auto.
  - destruct ch; try discriminate. destruct (reply m a w) eqn:E; intros H; inv_pair H; econstructor; eauto.
  - destruct ch; discriminate.
Qed.

Inductive ucase : ustate -> choice -> srv -> ustate -> Prop :=
| Uc_dereg d ch g' d' : dcase i g c false d ch g' (Some d') -> ucase (UDereg d) ch g' (UDereg d')
| Uc_deregd d ch g' : dcase i g c false d ch g' None -> ucase (UDereg d) ch g' UNil
| Uc_nil : g_lock g c = None -> ucase UNil Go (set_sess c None g) UClose
| Uc_close : ucase UClose Go (log (LSockClosed i c) g) UDone.
Lemma unlink_inv s ch g' s' : unlink_step i g c s ch = Some (g', s') -> ucase s ch g' s'.
Proof.
  unfold unlink_step. destruct s.
  - destruct (dereg_step i g c false d ch) as [[g1 [d1|]]|] eqn:D; [| |discriminate]; intros H; inv_pair H; apply dereg_inv in D; constructor; auto.
  - destruct ch; try discriminate. destruct (locked g c) eqn:L; [discriminate|]. apply locked_none in L. intros H; inv_pair H. constructor; auto.
  - destruct ch; try discriminate. intros H; inv_pair H. constructor.
  - destruct ch; discriminate.
Qed.
End Conn.

Definition qdone (q : lstate) : bool := match q with QDone _ => true | _ => false end.
Inductive scase (k : key) : sstate -> choice -> srv -> sstate -> Prop :=
| Sc_nobody : sessionConnections (g_reg g) k = None -> scase k SList (ChOrder []) g (SDone [] [] None)
| Sc_list l l' : sessionConnections (g_reg g) k = Some l' -> same_elements l l' = true ->
    scase k SList (ChOrder l) g (SLoop [] l)
| Sc_next done c todo : scase k (SLoop done (c :: todo)) Go g (SIn done c QStart todo)
| Sc_end done n : n = length (filter is_error (map snd done)) ->
    scase k (SLoop done []) Go g (SDone (map fst done) (map snd done) (if 0 <? n then Some n else None))
| Sc_in done c q todo ch g' q' : lcase c q ch g' q' -> qdone q' = false ->
    scase k (SIn done c q todo) ch g' (SIn done c q' todo)
| Sc_out done c q todo ch g' r : lcase c q ch g' (QDone r) ->
    scase k (SIn done c q todo) ch g' (SLoop (done ++ [(c, r)]) todo).
Lemma server_inv k s ch g' s' : server_step f i g k s ch = Some (g', s') -> scase k s ch g' s'.
Proof.
  unfold server_step. destruct s.
  - destruct ch; try discriminate. destruct (sessionConnections (g_reg g) k) eqn:E.
    + destruct (same_elements l l0) eqn:S; [|discriminate]. intros H; inv_pair H. econstructor; eauto.
    + destruct l; [|discriminate]. intros H; inv_pair H. constructor; auto.
  - destruct todo, ch; try discriminate; intros H; inv_pair H; constructor. reflexivity.
  - destruct (close_step f i g c q ch) as [[g1 q1]|] eqn:L; [|discriminate]. apply close_inv in L.
    destruct q1; intros H; inv_pair H; (eapply Sc_out; eauto; fail) || (eapply Sc_in; eauto).
  - destruct ch; discriminate.
Qed.

Inductive tcase : thread -> choice -> srv -> thread -> Prop :=
| Tc_create c info s ch g' s' : ccase c info s ch g' s' -> tcase (TCreate c info s) ch g' (TCreate c info s')
| Tc_close c s ch g' s' : lcase c s ch g' s' -> tcase (TClose c s) ch g' (TClose c s')
| Tc_restore c m s ch g' s' : rcase c m s ch g' s' -> tcase (TRestore c m s) ch g' (TRestore c m s')
| Tc_closure c m s ch g' s' : xcase c m s ch g' s' -> tcase (TClosure c m s) ch g' (TClosure c m s')
| Tc_unlink c s ch g' s' : ucase c s ch g' s' -> tcase (TUnlink c s) ch g' (TUnlink c s')
| Tc_server k s ch g' s' : scase k s ch g' s' -> tcase (TServer k s) ch g' (TServer k s').
Lemma tstep_inv t ch g' t' : tstep f i g t ch = Some (g', t') -> tcase t ch g' t'.
Proof.
  unfold tstep. destruct t.
  - destruct (create_step _ _ _ _ _ _ _) as [[g1 s1]|] eqn:E; [|discriminate]. intros H; inv_pair H. constructor. apply create_inv, E.
  - destruct (close_step _ _ _ _ _ _) as [[g1 s1]|] eqn:E; [|discriminate]. intros H; inv_pair H. constructor. apply close_inv, E.
  - destruct (restore_step _ _ _ _ _ _ _) as [[g1 s1]|] eqn:E; [|discriminate]. intros H; inv_pair H. constructor. apply restore_inv, E.
  - destruct (closure_step _ _ _ _ _ _ _) as [[g1 s1]|] eqn:E; [|discriminate]. intros H; inv_pair H. constructor. apply closure_inv, E.
  - destruct (unlink_step _ _ _ _ _) as [[g1 s1]|] eqn:E; [|discriminate]. intros H; inv_pair H. constructor. apply unlink_inv, E.
  - destruct (server_step _ _ _ _ _ _) as [[g1 s1]|] eqn:E; [|discriminate]. intros H; inv_pair H. constructor. apply server_inv, E.
Qed.
End Cases.
