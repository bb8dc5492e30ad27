(* The in-memory transport: what is in flight between two sockets. *)
From Coq Require Import List Arith NArith ZArith Lia Bool.
From Verif Require Import BaseBytes BaseConc ModelMessage ModelWrite ModelMemchan SpecWire SpecWrite SpecMemchan.
From Verif Require Import ProofMemchan ProofMemchan2.
Import ListNotations.
Open Scope nat_scope.

Global Arguments sent : simpl never.
Global Arguments got : simpl never.
Lemma sent_snoc k g l e : sent k g (l ++ [e]) = sent k g l ++
  match e with LSend _ k' g' b => if sock_eqb k' k && (g' =? g) then [b] else [] | _ => [] end.
Proof. unfold sent. rewrite flat_map_app. cbn. rewrite app_nil_r. reflexivity. Qed.
Lemma got_snoc k g l e : got k g (l ++ [e]) = got k g l ++
  match e with LRead _ k' g' b => if sock_eqb k' k && (g' =? g) then [b] else [] | _ => [] end.
Proof. unfold got. rewrite flat_map_app. cbn. rewrite app_nil_r. reflexivity. Qed.

Inductive rclass := RcNone | RcGet | RcWait (x : nat) | RcParse (x l : nat) | RcAck.
Definition rc (k : sock) (t : thread) : rclass :=
  match t with
  | TRead k' _ _ RdGet => if sock_eqb k' k then RcGet else RcNone
  | TRead k' _ _ (RdWait x) => if sock_eqb k' k then RcWait x else RcNone
  | TRead k' _ _ (RdParse x l) => if sock_eqb k' k then RcParse x l else RcNone
  | TRead k' _ _ (RdAck _) => if sock_eqb k' k then RcAck else RcNone
  | _ => RcNone
  end.
Inductive wclass := WcNone | WcUsing | WcBlock | WcFly | WcRead.
Definition wc (w : sock) (t : thread) : wclass :=
  match t with
  | TWrite k (WOpen | WFlush | WSend) => if sock_eqb k w then WcUsing else WcNone
  | TWrite k WBlock => if sock_eqb k w then WcBlock else WcNone
  | TWrite k (WSent | WParked) => if sock_eqb k w then WcFly else WcNone
  | TWrite k (WReset WrRead) => if sock_eqb k w then WcRead else WcNone
  | _ => WcNone
  end.
Inductive stage := Idle | Full (l : nat) | Parse (j l : nat) | Ack (j : nat).
Section Dir.
Variables (k : sock) (n : net) (ts : list thread).
Notation w := (remote k).
Notation g := (u_gen (n_sock n k)).
Notation S_ := (sent w g (n_log n)).
Notation G_ := (got k g (n_log n)).
Definition last_by (i : nat) : Prop := exists S0 b, S_ = S0 ++ [b] /\ In (LSend i w g b) (n_log n).
Record dir (st : stage) : Prop := {
  d_r : forall j t, nth_error ts j = Some t ->
    match rc k t with
    | RcNone | RcGet => True | RcWait x => x = g | RcParse x l => x = g /\ st = Parse j l | RcAck => st = Ack j
    end;
  d_w : forall i t, nth_error ts i = Some t ->
    match wc w t with
    | WcNone => True | WcUsing => st = Idle | WcBlock => False
    | WcFly => st <> Idle /\ last_by i | WcRead => st = Idle /\ last_by i
    end;
  d_s : match st with
    | Idle => h_data (n_chan n k g) = None /\ S_ = G_
    | Full l => h_data (n_chan n k g) = Some l /\ S_ = G_ ++ [slice (u_buf (n_sock n w)) l]
    | Parse j l => h_data (n_chan n k g) = None /\ S_ = G_ ++ [slice (u_buf (n_sock n w)) l] /\
        exists t, nth_error ts j = Some t /\ rc k t = RcParse g l
    | Ack j => h_data (n_chan n k g) = None /\ S_ = G_ /\ exists t, nth_error ts j = Some t /\ rc k t = RcAck
    end;
  d_o : st <> Idle -> n_on n (fst k) = false \/ (exists i t, nth_error ts i = Some t /\ dialing (fst k) t = true) \/
    exists i t, nth_error ts i = Some t /\ wc w t = WcFly;
  d_f : forall x, g < x -> n_chan n k x = MkChan None false /\ sent w x (n_log n) = [] /\ got k x (n_log n) = [];
  d_p : forall x, x < g -> is_prefix (got k x (n_log n)) (sent w x (n_log n));
  d_d : forall i, nth_error ts i = Some (TDial (fst k) DlReset2) -> snd k = Clt -> st = Idle }.
End Dir.
(* nothing that matters to direction k changes *)
Lemma dir_frame k n n' ts i t t' st : dir k n ts st -> nth_error ts i = Some t ->
  u_gen (n_sock n' k) = u_gen (n_sock n k) ->
  (forall x, h_data (n_chan n' k x) = h_data (n_chan n k x) /\ (u_gen (n_sock n k) < x -> h_closed (n_chan n' k x) = h_closed (n_chan n k x))) ->
  (st <> Idle -> b_data (u_buf (n_sock n' (remote k))) = b_data (u_buf (n_sock n (remote k)))) ->
  (forall x, sent (remote k) x (n_log n') = sent (remote k) x (n_log n)) ->
  (forall x, got k x (n_log n') = got k x (n_log n)) ->
  incl (n_log n) (n_log n') ->
  (n_on n (fst k) = false -> n_on n' (fst k) = false \/ dialing (fst k) t' = true) ->
  (rc k t' = rc k t \/ rc k t' = RcGet /\ rc k t = RcNone \/ (rc k t' = RcWait (u_gen (n_sock n k)) \/ rc k t' = RcNone) /\ (rc k t = RcGet \/ rc k t = RcWait (u_gen (n_sock n k)))) ->
  (wc (remote k) t' = wc (remote k) t \/ (wc (remote k) t = WcUsing \/ wc (remote k) t = WcRead) /\ wc (remote k) t' = WcNone \/
    wc (remote k) t = WcNone /\ wc (remote k) t' = WcUsing /\ st = Idle) ->
  (dialing (fst k) t = true -> dialing (fst k) t' = true \/ st = Idle) ->
  (t' = TDial (fst k) DlReset2 -> snd k = Clt -> st = Idle) ->
  dir k n' (set_nth ts i t') st.
Proof.
  intros [R W S O F P Dd] I Eg Ed Eb Es Ego In_ On Rc Wc Dl Dl2.
  assert (Ld : forall x u, nth_error (set_nth ts i t') x = Some u -> (x = i /\ u = t') \/ (x <> i /\ nth_error ts x = Some u)).
  { intros x u X. apply set_nth_lookup in X as [[<- ->]|[D X]]; auto. }
  assert (Lk : forall x, last_by k n x -> last_by k n' x).
  { intros x (S0 & b & A & B). exists S0, b. rewrite Eg, Es. split; [exact A|apply In_; exact B]. }
  constructor.
  - intros j u U. destruct (Ld _ _ U) as [[-> ->]|[D U']]; [|rewrite Eg; apply R; assumption].
    pose proof (R _ _ I) as RI. rewrite Eg.
    destruct Rc as [->|[[-> _]|[[->| ->] _]]]; auto.
  - intros j u U. destruct (Ld _ _ U) as [[-> ->]|[D U']].
    + pose proof (W _ _ I) as WI. destruct Wc as [->|[[_ ->]|(_ & -> & ->)]]; [|exact Logic.I|reflexivity]. destruct (wc (remote k) t); auto; destruct WI; auto.
    + pose proof (W _ _ U') as WI. destruct (wc (remote k) u); auto; destruct WI; auto.
  - rewrite Eg, Es, Ego. destruct (Ed (u_gen (n_sock n k))) as [-> _]. unfold slice in *.
    assert (X : forall j c, c <> RcNone -> c <> RcGet -> (forall x, c <> RcWait x) ->
      (exists u, nth_error ts j = Some u /\ rc k u = c) -> exists u, nth_error (set_nth ts i t') j = Some u /\ rc k u = c).
    { intros j c C1 C2 C3 (u & U & V). destruct (Nat.eq_dec i j) as [<-|D].
      - exists t'. split; [eapply set_nth_eq; eauto|]. rewrite I in U. injection U as <-.
        destruct Rc as [->|[[_ Q]|[_ [Q|Q]]]]; congruence.
      - exists u. split; [rewrite set_nth_ne by auto; exact U|exact V]. }
    destruct st; rewrite ?Eb by discriminate; try exact S;
      (destruct S as (S1 & S2 & S3); split; [exact S1|]; split; [exact S2|]; apply X; [discriminate..|exact S3]).
  - intros D. destruct (O D) as [A|[(x & u & U & V)|(x & u & U & V)]].
    + destruct (On A) as [B|B]; [auto|]. right. left. exists i, t'. split; [eapply set_nth_eq; eauto|exact B].
    + right. left. destruct (Nat.eq_dec i x) as [<-|Dx].
      * rewrite I in U. injection U as <-. destruct (Dl V) as [B|B]; [|contradiction]. exists i, t'. split; [eapply set_nth_eq; eauto|exact B].
      * exists x, u. split; [rewrite set_nth_ne by auto; exact U|exact V].
    + right. right. destruct (Nat.eq_dec i x) as [<-|Dx].
      * rewrite I in U. injection U as <-. exists i, t'. split; [eapply set_nth_eq; eauto|]. destruct Wc as [->|[[[Q|Q] _]|[Q _]]]; congruence.
      * exists x, u. split; [rewrite set_nth_ne by auto; exact U|exact V].
  - intros x X. rewrite Eg in X. destruct (F x X) as (A & B & C). rewrite Es, Ego. repeat split; auto.
    destruct (Ed x) as [Q1 Q2]. specialize (Q2 X). rewrite A in *. cbn in *. destruct (n_chan n' k x); cbn in *; congruence.
  - intros x X. rewrite Eg in X. rewrite Es, Ego. auto.
  - intros x U. destruct (Ld _ _ U) as [[-> <-]|[D U']]; eauto.
Qed.
Lemma busy_none k t : busy (fst k) t = false -> rc k t = RcNone /\ wc (remote k) t = WcNone /\ dialing (fst k) t = false.
Proof.
  destruct t as [k0 s|k0 m d s|k0 s|q s|s]; cbn; auto.
  - intros B. split; [reflexivity|]. split; [|reflexivity]. destruct s as [| | | | | | |[]|]; auto; destruct (sock_eqb_spec k0 (remote k)) as [->|]; auto; cbn in B; rewrite Nat.eqb_refl in B; discriminate.
  - intros B. split; [|auto]. destruct s; auto; destruct (sock_eqb_spec k0 k) as [->|]; auto; cbn in B; rewrite Nat.eqb_refl in B; discriminate.
  - intros B. split; [auto|]. split; [auto|]. destruct s; auto; destruct (q =? fst k); auto.
Qed.
Lemma dir_reset k n ts i t t' st : dir k n ts st -> nth_error ts i = Some t ->
  (forall j u, j <> i -> nth_error ts j = Some u -> busy (fst k) u = false) ->
  rc k t' = RcNone -> wc (remote k) t' = WcNone ->
  dir k (set_gen k (S (u_gen (n_sock n k))) n) (set_nth ts i t') Idle.
Proof.
  intros [R W Sg O F P Dd] I B Rt Wt.
  assert (Ld : forall x u, nth_error (set_nth ts i t') x = Some u -> rc k u = RcNone /\ wc (remote k) u = WcNone).
  { intros x u X. apply set_nth_lookup in X as [[<- ->]|[D X]]; [auto|]. assert (Bu : busy (fst k) u = false) by eauto. apply busy_none in Bu. tauto. }
  assert (Eg : u_gen (n_sock (set_gen k (S (u_gen (n_sock n k))) n) k) = S (u_gen (n_sock n k))) by (autorewrite with net; reflexivity).
  constructor; rewrite ?Eg.
  - intros j u U. destruct (Ld _ _ U) as [-> _]. exact Logic.I.
  - intros j u U. destruct (Ld _ _ U) as [_ ->]. exact Logic.I.
  - destruct (F (S (u_gen (n_sock n k)))) as (A & C & D); [lia|]. autorewrite with net. rewrite A. cbn. rewrite C, D. auto.
  - congruence.
  - intros x X. apply F. lia.
  - intros x X. autorewrite with net. destruct (Nat.eq_dec x (u_gen (n_sock n k))) as [->|D]; [|apply P; lia].
    destruct st; destruct Sg as (_ & Q); try (match type of Q with _ /\ _ => destruct Q as [Q _] end); rewrite Q.
    + exists []. rewrite app_nil_r. reflexivity.
    + eexists; reflexivity.
    + eexists; reflexivity.
    + exists []. rewrite app_nil_r. reflexivity.
  - reflexivity.
Qed.
Lemma incl_snoc {A} (l : list A) e : incl l (l ++ [e]).
Proof. intros x X. apply in_or_app. auto. Qed.
Ltac fr D I :=
  eapply (dir_frame _ _ _ _ _ _ _ _ D I); netu; netc; unfold upd;
  [ caseq; netc; first [reflexivity|congruence]
  | intros ?x; caseq; cbn; auto; try congruence; try (split; [congruence|intros; exfalso; lia])
  | intros ?N; caseq; netc; first [reflexivity|congruence]
  | intros ?x; rewrite ?sent_snoc; cbn [app]; caseq; cbn [andb]; rewrite ?app_nil_r; first [reflexivity|congruence]
  | intros ?x; rewrite ?got_snoc; cbn [app]; caseq; cbn [andb]; rewrite ?app_nil_r; first [reflexivity|congruence]
  | first [apply incl_refl | apply incl_snoc | let z := fresh in let Z := fresh in intros z Z; repeat (apply in_or_app; left); exact Z]
  | intros ?F; try (left; caseq; first [exact F|congruence]; fail)
  | cbn; caseq; auto; try congruence
  | cbn; caseq; auto; try congruence
  | cbn; try discriminate; auto
  | try discriminate ].
Lemma fly_holds w u : wc w u = WcFly -> hw w u = true.
Proof.
  destruct u as [k2 []| | | |]; try discriminate; cbn; try (destruct r; try discriminate); destruct (sock_eqb k2 w); congruence.
Qed.
Lemma open_idle k ts n st : locks n ts -> dir k n ts st -> u_wlk (n_sock n (remote k)) = None -> n_on n (fst k) = true ->
  (forall j u, nth_error ts j = Some u -> dialing (fst k) u = false) -> st = Idle.
Proof.
  intros L D W O N.
  assert (X : st <> Idle -> False).
  { intros Q. destruct (d_o _ _ _ _ D Q) as [A|[(x & u & U & V)|(x & u & U & V)]].
    - congruence.
    - rewrite (N _ _ U) in V. discriminate.
    - assert (Y : u_wlk (n_sock n (remote k)) = Some x); [|congruence].
      apply (L_w _ _ L (remote k) x). exists u. split; [exact U|apply fly_holds; exact V]. }
  destruct st; try reflexivity; exfalso; apply X; discriminate.
Qed.
Lemma using_holds w u : wc w u = WcUsing -> hw w u = true.
Proof.
  destruct u as [k2 []| | | |]; try discriminate; cbn; try (destruct r; try discriminate); destruct (sock_eqb k2 w); congruence.
Qed.
Lemma read_holds w u : wc w u = WcRead -> hb w u = true.
Proof.
  destruct u as [k2 []| | | |]; try discriminate; cbn; try (destruct r; try discriminate); destruct (sock_eqb k2 w); congruence.
Qed.
Lemma rc_holds k u : rc k u <> RcNone -> hr k u = true.
Proof.
  destruct u as [|k2 ? ? []| | |]; try (cbn; congruence); cbn; destruct (sock_eqb k2 k); congruence.
Qed.
Lemma dir_send k ts i n s n' : locks n ts -> dir k n ts Idle -> nth_error ts i = Some (TWrite (remote k) s) ->
  s = WSend -> (forall j u, nth_error ts j = Some u -> dialing (fst k) u = false) ->
  n' = log (LSend i (remote k) (u_gen (n_sock n k)) (slice (u_buf (n_sock n (remote k))) (b_len (u_buf (n_sock n (remote k))))))
           (set_chan k (u_gen (n_sock n k)) (MkChan (Some (b_len (u_buf (n_sock n (remote k))))) false) n) ->
  dir k n' (set_nth ts i (TWrite (remote k) WSent)) (Full (b_len (u_buf (n_sock n (remote k))))).
Proof.
  intros L [R W Sg O F P Dd] I -> N ->.
  pose proof (holder_w _ _ L _ _ _ I) as HW. pose proof (holder_b _ _ L _ _ _ I) as HB. cbn in HW, HB.
  rewrite sock_eqb_refl in HW, HB. specialize (HW eq_refl). specialize (HB eq_refl).
  assert (Ow : forall j u, j <> i -> nth_error ts j = Some u -> wc (remote k) u = WcNone).
  { intros j u J U. pose proof (W _ _ U) as X. destruct (wc (remote k) u) eqn:E; auto.
    - exfalso. assert (u_wlk (n_sock n (remote k)) = Some j); [|congruence].
      apply (L_w _ _ L). exists u. split; [exact U|]. apply using_holds. exact E.
    - destruct X.
    - destruct X as [X _]. congruence.
    - exfalso. assert (u_blk (n_sock n (remote k)) = Some j); [|congruence].
      apply (L_b _ _ L). exists u. split; [exact U|]. apply read_holds. exact E. }
  constructor; netu; netc; rewrite ?sock_eqb_refl; unfold upd; rewrite ?Nat.eqb_refl; cbn [h_data].
  - intros j u U. apply set_nth_lookup in U as [[<- ->]|[J U]]; [exact Logic.I|].
    pose proof (R _ _ U) as X. destruct (rc k u); auto; try (destruct X; discriminate); discriminate.
  - intros j u U. apply set_nth_lookup in U as [[<- ->]|[J U]].
    + cbn. rewrite sock_eqb_refl. split; [discriminate|]. unfold last_by. netc.
      rewrite sent_snoc, sock_eqb_refl, Nat.eqb_refl. cbn. eexists; eexists; split; [reflexivity|apply in_or_app; cbn; auto].
    + rewrite (Ow j u); auto.
  - split; [reflexivity|]. rewrite sent_snoc, got_snoc, sock_eqb_refl, Nat.eqb_refl. cbn. rewrite app_nil_r.
    destruct Sg as [_ ->]. reflexivity.
  - intros _. right. right. exists i, (TWrite (remote k) WSent). split; [eapply set_nth_eq; eauto|]. cbn. rewrite sock_eqb_refl. reflexivity.
  - intros x X. destruct (Nat.eqb_spec x (u_gen (n_sock n k))) as [Q|Dx]; [lia|].
    rewrite sent_snoc, got_snoc. destruct (Nat.eqb_spec (u_gen (n_sock n k)) x) as [Q|_]; [lia|]. rewrite andb_false_r, !app_nil_r. auto.
  - intros x X. rewrite sent_snoc, got_snoc. destruct (Nat.eqb_spec (u_gen (n_sock n k)) x) as [Q|_]; [lia|]. rewrite andb_false_r, !app_nil_r. auto.
  - intros x U. apply set_nth_lookup in U as [[_ U]|[_ U]]; [discriminate|]. apply N in U. cbn in U. rewrite Nat.eqb_refl in U. discriminate.
Qed.
(* a change of stage by a reader *)
Lemma dir_read k ts i n t t' st n' st' : dir k n ts st -> locks n ts -> nth_error ts i = Some t -> hr k t = true ->
  (forall j u, nth_error ts j = Some u -> dialing (fst k) u = false) -> (forall p, dialing p t' = false) -> wc (remote k) t' = wc (remote k) t ->
  n_sock n' = n_sock n -> n_on n' = n_on n ->
  (forall x, x <> u_gen (n_sock n k) -> n_chan n' k x = n_chan n k x) ->
  (forall x, sent (remote k) x (n_log n') = sent (remote k) x (n_log n)) ->
  (forall x, x <> u_gen (n_sock n k) -> got k x (n_log n') = got k x (n_log n)) ->
  incl (n_log n) (n_log n') -> st <> Idle -> st' <> Idle ->
  match rc k t' with
  | RcNone | RcGet => True | RcWait x => x = u_gen (n_sock n k) | RcParse x l => x = u_gen (n_sock n k) /\ st' = Parse i l | RcAck => st' = Ack i
  end ->
  match st' with
  | Idle => True
  | Full l => h_data (n_chan n' k (u_gen (n_sock n k))) = Some l /\ sent (remote k) (u_gen (n_sock n k)) (n_log n) = got k (u_gen (n_sock n k)) (n_log n') ++ [slice (u_buf (n_sock n (remote k))) l]
  | Parse j l => h_data (n_chan n' k (u_gen (n_sock n k))) = None /\ sent (remote k) (u_gen (n_sock n k)) (n_log n) = got k (u_gen (n_sock n k)) (n_log n') ++ [slice (u_buf (n_sock n (remote k))) l] /\
      j = i /\ rc k t' = RcParse (u_gen (n_sock n k)) l
  | Ack j => h_data (n_chan n' k (u_gen (n_sock n k))) = None /\ sent (remote k) (u_gen (n_sock n k)) (n_log n) = got k (u_gen (n_sock n k)) (n_log n') /\ j = i /\ rc k t' = RcAck
  end ->
  dir k n' (set_nth ts i t') st'.
Proof.
  intros [R W Sg O F P Dd] L I Hr N Nt Wt Es Eo Ec Ese Eg In_ N1 N2 Rt Sst.
  assert (Or : forall j u, j <> i -> nth_error ts j = Some u -> rc k u = RcNone).
  { intros j u J U. destruct (rc k u) eqn:E; auto; exfalso;
      (assert (X : u_rlk (n_sock n k) = Some i) by (apply (L_r _ _ L); eauto));
      (assert (Y : u_rlk (n_sock n k) = Some j) by (apply (L_r _ _ L); exists u; split; [exact U|apply rc_holds; congruence]));
      congruence. }
  assert (Lb : forall x, last_by k n x -> last_by k n' x).
  { intros x (S0 & b & A & B). exists S0, b. rewrite Es, Ese. split; [exact A|apply In_; exact B]. }
  constructor; rewrite ?Es, ?Eo.
  - intros j u U. apply set_nth_lookup in U as [[<- ->]|[J U]]; [exact Rt|]. rewrite (Or j u); auto.
  - intros j u U. apply set_nth_lookup in U as [[<- ->]|[J U]].
    + rewrite Wt. pose proof (W _ _ I) as X. destruct (wc (remote k) t); auto; [contradiction|destruct X as [_ X]; auto|destruct X; contradiction].
    + pose proof (W _ _ U) as X. destruct (wc (remote k) u); auto; [contradiction|destruct X as [_ X]; auto|destruct X; contradiction].
  - rewrite Ese. destruct st'; [contradiction| | |].
    + exact Sst.
    + destruct Sst as (A & B & -> & Q). split; [exact A|]. split; [exact B|]. exists t'. split; [eapply set_nth_eq; eauto|exact Q].
    + destruct Sst as (A & B & -> & Q). split; [exact A|]. split; [exact B|]. exists t'. split; [eapply set_nth_eq; eauto|exact Q].
  - intros _. destruct (O N1) as [A|[(x & u & U & V)|(x & u & U & V)]].
    + auto.
    + rewrite (N _ _ U) in V. discriminate.
    + right. right. destruct (Nat.eq_dec i x) as [<-|Dx].
      * exists i, t'. split; [eapply set_nth_eq; eauto|]. congruence.
      * exists x, u. split; [rewrite set_nth_ne by auto; exact U|exact V].
  - intros x X. rewrite Ec, Ese, Eg by lia. auto.
  - intros x X. rewrite Ese, Eg by lia. auto.
  - intros x U. apply set_nth_lookup in U as [[_ U]|[_ U]]; [specialize (Nt (fst k)); rewrite <- U in Nt|apply N in U as Nt'; rename Nt' into Nt2].
    + cbn in Nt. rewrite Nat.eqb_refl in Nt. discriminate.
    + cbn in Nt2. rewrite Nat.eqb_refl in Nt2. discriminate.
Qed.
Lemma dir_step k ts i n t n' t' st size w : locks n ts -> books size n ts -> dir k n ts st -> nth_error ts i = Some t ->
  trel ts i n t n' t' w -> (forall j, w <> Some (j, WrRead)) -> calm (MkSys n ts) -> calm (MkSys n' (set_nth ts i t')) -> exists st', dir k n' (set_nth ts i t') st'.
Proof.
  intros L K D I T Nw C0 C.
  assert (NB : forall p, dialing p t' = true -> forall j u, j <> i -> nth_error ts j = Some u -> busy p u = false).
  { intros p Dp j u J U. apply (C i j p t' u); auto; unfold at_; cbn; [eapply set_nth_eq; eauto|rewrite set_nth_ne by auto; exact U]. }
  assert (ND : busy (fst k) t' = true -> dialing (fst k) t = false -> forall j u, nth_error ts j = Some u -> dialing (fst k) u = false).
  { intros Bp Dt j u U. destruct (Nat.eq_dec j i) as [->|J]; [congruence|]. destruct (dialing (fst k) u) eqn:E; [|reflexivity].
    assert (X : busy (fst k) t' = false); [|congruence].
    apply (C j i (fst k) u t'); auto; unfold at_; cbn; [rewrite set_nth_ne by auto; exact U|eapply set_nth_eq; eauto]. }
  tcases T k1 s n1 s1 H H0; clear T C.
  - pose proof (d_w _ _ _ _ D _ _ I) as DW. cbn in DW.
    inversion H; subst; clear H.
    + (* W_open *) destruct (sock_eqb_spec k1 (remote k)) as [->|Dk].
      * assert (st = Idle) as ->.
        { eapply open_idle; eauto. apply ND; [|reflexivity]. cbn. rewrite Nat.eqb_refl. reflexivity. }
        exists Idle. fr D I.
      * exists st. fr D I.
    + exists st. fr D I.
    + (* W_write *) exists st. destruct (sock_eqb_spec k1 (remote k)) as [->|Dk]; [subst st|]; fr D I.
    + exists st. fr D I.
    + exists st. fr D I.
    + exists st. fr D I.
    + exists st. fr D I.
    + exists st. fr D I.
    + (* W_full *) destruct (sock_eqb_spec k1 (remote k)) as [->|Dk].
      * subst st. rewrite remote_remote in *. destruct (d_s _ _ _ _ D). congruence.
      * exists st. fr D I.
    + (* W_send *) destruct (sock_eqb_spec k1 (remote k)) as [->|Dk].
      * subst st. rewrite remote_remote in *. eexists. eapply (dir_send k ts i n WSend); eauto.
        apply ND; [|reflexivity]. cbn. rewrite Nat.eqb_refl. reflexivity.
      * assert (Dk' : k <> remote k1) by (intros ->; rewrite remote_remote in Dk; congruence).
        exists st. fr D I.
    + (* W_unblock *) destruct (sock_eqb_spec k1 (remote k)) as [->|Dk].
      * contradiction.
      * assert (Dk' : k <> remote k1) by (intros ->; rewrite remote_remote in Dk; congruence).
        exists st. fr D I.
    + exists st. fr D I.
    + exists st. destruct (L_x _ _ L _ _ _ I) as [->|[->| ->]]; fr D I.
  - pose proof (d_r _ _ _ _ D _ _ I) as DR. cbn in DR.
    inversion H; subst; clear H; try (exfalso; eapply Nw; reflexivity); try (exists st; fr D I; fail).
    + (* R_recv *) destruct (sock_eqb_spec k1 k) as [->|Dk]; [subst g|exists st; fr D I].
      assert (Q : st = Full l /\ sent (remote k) (u_gen (n_sock n k)) (n_log n) =
                  got k (u_gen (n_sock n k)) (n_log n) ++ [slice (u_buf (n_sock n (remote k))) l]).
      { pose proof (d_s _ _ _ _ D) as X. destruct st; destruct X as [X Y]; try congruence.
        replace l with l0 by congruence. auto. }
      destruct Q as [-> Q]. exists (Parse i l).
      eapply (dir_read k ts i n _ _ (Full l)); try eassumption; try reflexivity; try discriminate.
      * cbn. apply sock_eqb_refl.
      * apply ND; [|reflexivity]. cbn. rewrite Nat.eqb_refl. reflexivity.
      * intros x X. netu; netc. rewrite sock_eqb_refl. unfold upd. destruct (Nat.eqb_spec x (u_gen (n_sock n k))); congruence.
      * apply incl_refl.
      * cbn. rewrite sock_eqb_refl. auto.
      * cbn. rewrite sock_eqb_refl. netu; netc. rewrite sock_eqb_refl. unfold upd. rewrite Nat.eqb_refl. auto.
    + (* R_parse *) destruct (sock_eqb_spec k1 k) as [->|Dk]; [destruct DR as [-> ->]|exists st; fr D I].
      destruct (d_s _ _ _ _ D) as (Q1 & Q2 & _).
      exists (Ack i). eapply (dir_read k ts i n _ _ (Parse i l)); try eassumption; try reflexivity; try discriminate; netu; netc.
      * cbn. apply sock_eqb_refl.
      * apply ND; [|reflexivity]. cbn. rewrite Nat.eqb_refl. reflexivity.
      * intros x. rewrite sent_snoc, app_nil_r. reflexivity.
      * intros x X. rewrite got_snoc. destruct (Nat.eqb_spec (u_gen (n_sock n k)) x); [congruence|]. rewrite andb_false_r. apply app_nil_r.
      * apply incl_snoc.
      * cbn. rewrite sock_eqb_refl. reflexivity.
      * cbn. rewrite sock_eqb_refl. rewrite got_snoc, sock_eqb_refl, Nat.eqb_refl. cbn. auto.
  - destruct t as [|k0 m0 d0 [| | | | |r0 cl0|]|k0 cl0| |[| | |p0 cl0 todo|]]; try discriminate H; injection H as Hk Hs; subst;
      inversion H0; subst; clear H0; cbn [end_close to_close] in *; try (exists st; fr D I; fail).
  - inversion H; subst; clear H; try (exists st; fr D I; fail).
    + (* D_cas *) exists st. fr D I.
      destruct (Nat.eqb_spec (fst k) p) as [<-|Dp]; [right; cbn; apply Nat.eqb_refl|left; exact F].
    + (* D_reset1 *) destruct (sock_eqb_spec k (p, Clt)) as [->|Dk].
      * exists Idle. eapply (dir_reset (p, Clt)); eauto. apply NB. cbn. apply Nat.eqb_refl.
      * exists st. fr D I. intros Q V. exfalso. apply Dk. injection Q as ->. destruct k as [p0 sd]. cbn in *. congruence.
    + (* D_reset2 *) destruct (sock_eqb_spec k (p, Srv)) as [->|Dk].
      * exists Idle. eapply (dir_reset (p, Srv)); eauto.
        intros j u J U. apply (C0 i j p (TDial p DlReset2) u); auto. cbn. apply Nat.eqb_refl.
      * exists st. fr D I. intros Q. right. apply Nat.eqb_eq in Q. subst p.
        destruct k as [p []]; [exfalso; apply Dk; reflexivity|]. eapply d_d; eauto.
  - inversion H; subst; clear H; exists st; fr D I.
Qed.
