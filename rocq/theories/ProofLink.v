From Coq Require Import List Arith NArith ZArith Lia Bool.
From Verif Require Import BaseBytes BaseConc ModelMessage ModelWrite ModelPool ModelPayload ModelHandle
  ModelServe ModelRequests ModelLink SpecWire SpecMessage SpecWrite SpecHandle SpecServe SpecRequests SpecLink
  ProofMessage ProofWrite ProofWire ProofCodec ProofHandle ProofServe ProofServe2 ProofServe3 ProofServe4 ProofRequests.
Import ListNotations.
Open Scope nat_scope.

(* ---------- frames ---------- *)
Lemma frame_first b k : frame b k -> exists t l, b = t :: l /\ b2N t = k_type k.
Proof.
  intros F. destruct F; eexists _, _; (split; [reflexivity|]); cbn [k_type]; try (destruct e; try congruence; reflexivity); try reflexivity.
  apply b2N_n2b_small. lia.
Qed.
Lemma say_frame id x b k : length id = 8 -> frame_of id x = Some b -> frame b k -> k = say_content id x.
Proof.
  intros L W F. unfold frame_of in W. destruct (write_say id x) as [[s [er|]]|] eqn:E; try discriminate. injection W as <-.
  destruct x as [name e p|key|]; cbn [write_say] in E.
  - assert (V : valid_request name e p true).
    { eapply request_accepts; eauto. }
    rewrite request_seq in E by assumption. rewrite write_seq_sink, concat_request in E. injection E as <-. cbn [s_bytes empty_sink app] in F.
    eapply frame_fun; [exact F|]. eapply request_in_grammar; eassumption.
  - assert (s_bytes s = n2b 32 :: id ++ key) as EB.
    { destruct key; cbn in E; injection E as <-; cbn; rewrite ?app_nil_r; reflexivity. }
    rewrite EB in F. destruct key as [|y key].
    + exfalso. destruct (frame_first _ _ F) as (t & l & T & TK). injection T as <- <-. rewrite app_nil_r in *.
      change (b2N (n2b 32)) with 32%N in TK. inversion F; subst; cbn in TK; try discriminate; try (destruct e; discriminate); try lia.
      match goal with H : ?k <> [] |- _ => apply H; clear H; destruct k; [reflexivity|] end.
      rewrite app_length in L. cbn in L. lia.
    + eapply frame_fun; [exact F|]. apply F_restore; [assumption|discriminate].
  - cbn in E. injection E as <-. eapply frame_fun; [exact F|]. apply F_close_session; assumption.
Qed.

(* ---------- steps of the server ---------- *)
Definition reader (c : nat) (t : sthread) : bool :=
  match t with
  | SLoop d | SRead d _ | SGot d _ _ _ | SSkip d _ _ _ | SJob d _ _ _ true _ => d =? c
  | _ => false
  end.
Definition owner (t : sthread) : option nat :=
  match t with
  | SLoop d | SRead d _ | SFail d _ | SGot d _ _ _ | SSkip d _ _ _ | SJob d _ _ _ _ _ => Some d
  | SEnd => None
  end.
Definition olist {A} (o : option A) : list A := match o with Some x => [x] | None => [] end.

Ltac crush H :=
  repeat match type of H with
  | Some _ = Some _ => injection H as <- <- <- || injection H as <- <-
  | context [match ?x with _ => _ end] => destruct x eqn:?; try discriminate H
  | None = Some _ => discriminate H
  end.
Lemma z_free_log a z z' : z_free a z = Some z' -> z_log z' = z_log z /\ z_ts z' = z_ts z.
Proof. unfold z_free. destruct (pool_close _ _); [|discriminate]. intros [= <-]. auto. Qed.
Lemma job_log z c a f h ch z' h' : job z c a f h ch = Some (z', h') ->
  z_ts z' = z_ts z /\ exists es, z_log z' = z_log z ++ es /\ length es <= 1 /\ forall d g b, ~ In (VFrame d g b) es.
Proof.
  unfold job. intros H. destruct (mem z a) as [m|]; [|discriminate].
  assert (K0 : forall zz, z_log zz = z_log z -> exists es, z_log zz = z_log z ++ es /\ length es <= 1 /\ forall d g b, ~ In (VFrame d g b) es).
  { intros zz ->. exists []. rewrite app_nil_r. cbn. auto. }
  assert (K1 : forall zz e, z_log zz = z_log z ++ [e] -> (forall d g b, e <> VFrame d g b) ->
     exists es, z_log zz = z_log z ++ es /\ length es <= 1 /\ forall d g b, ~ In (VFrame d g b) es).
  { intros zz e -> N. exists [e]. split; [reflexivity|]. split; [cbn; lia|]. intros d g b [C|[]]. eapply N; eauto. }
  destruct h, ch; try discriminate H; cbn [job] in H; crush H;
    try match goal with X : z_free _ _ = Some _ |- _ => destruct (z_free_log _ _ _ X) as [F1 F2] end;
    (split; [cbn; try rewrite F2; reflexivity|]);
    solve [apply K0; cbn; try rewrite F1; reflexivity | eapply K1; [cbn; try rewrite F1; reflexivity|discriminate]].
Qed.
Lemma zstep_log z t ch z' t' sp : zstep z t ch = Some (z', t', sp) ->
  z_ts z' = z_ts z /\ (forall c, b2i (reader c t') + count (reader c) (olist sp) <= b2i (reader c t)) /\
  (forall u d, (u = t' \/ In u (olist sp)) -> owner u = Some d -> owner t = Some d) /\
  exists es, z_log z' = z_log z ++ es /\ length es <= 1 /\
    forall d g b, In (VFrame d g b) es -> exists a, t = SRead d a /\ ch = CFrame b.
Proof.
  intros H.
  assert (K0 : forall zz, z_log zz = z_log z -> exists es, z_log zz = z_log z ++ es /\ length es <= 1 /\
     forall d g b, In (VFrame d g b) es -> exists a, t = SRead d a /\ ch = CFrame b).
  { intros zz ->. exists []. rewrite app_nil_r. cbn. split; [reflexivity|]. split; [lia|]. tauto. }
  assert (K1 : forall zz e, z_log zz = z_log z ++ [e] -> (forall d g b, e <> VFrame d g b) ->
     exists es, z_log zz = z_log z ++ es /\ length es <= 1 /\
     forall d g b, In (VFrame d g b) es -> exists a, t = SRead d a /\ ch = CFrame b).
  { intros zz e -> N. exists [e]. split; [reflexivity|]. split; [cbn; lia|]. intros d g b [C|[]]. exfalso. eapply N; eauto. }
  destruct t as [c|c a|c a|c a f b|c a f b|c a f b s h|].
  6:{ cbn [zstep] in H. destruct (job z c a f h ch) as [[z1 [h1|]]|] eqn:J; [| |discriminate];
      apply job_log in J as [T (es & L & N & V)]; injection H as <- <- <-;
      (split; [exact T|]); (split; [intros d; destruct s; cbn; lia|]);
      (split; [intros u d [->|[]] O; destruct s; cbn in O |- *; congruence|]);
      exists es; (split; [exact L|split; [exact N|]]); intros d g b0 I; destruct (V _ _ _ I). }
  all: destruct ch; try discriminate H; cbn [zstep] in H; crush H;
    try match goal with X : z_free _ _ = Some _ |- _ => destruct (z_free_log _ _ _ X) as [F1 F2] end;
    (split; [cbn; try rewrite F2; reflexivity|]);
    (split; [intros d; cbn; destruct (c =? d); cbn; lia|]);
    (split; [intros u d [U|U] O; cbn in U; [subst u|try destruct U; try contradiction; subst]; cbn in O |- *; congruence|]);
    try solve [apply K0; cbn; try rewrite F1; reflexivity | eapply K1; [cbn; try rewrite F1; reflexivity|discriminate]].
  exists [VFrame c (z_n z) b]. split; [reflexivity|]. split; [cbn; lia|]. intros d g b1 [[= <- <- <-]|[]]. eauto.
Qed.
Record rd (z : serve) : Prop := {
  rd_one : forall c, count (reader c) (z_ts z) <= 1;
  rd_own : forall i t d, nth_error (z_ts z) i = Some t -> owner t = Some d -> d < length (z_ts z) }.
Lemma reader_owner c t : reader c t = true -> owner t = Some c.
Proof. destruct t as [| | | | |? ? ? ? [|] ?|]; cbn; try discriminate; intros H; apply Nat.eqb_eq in H; congruence. Qed.
Lemma rd_fresh z c : rd z -> length (z_ts z) <= c -> count (reader c) (z_ts z) = 0.
Proof.
  intros R L. apply count_zero. intros t Ht. destruct (reader c t) eqn:E; [|reflexivity]. apply reader_owner in E.
  apply In_nth_error in Ht as [i Hi]. pose proof (rd_own z R _ _ _ Hi E). lia.
Qed.
Lemma serve_step_ts z e z' : serve_step z e = Some z' ->
  (e = ZConnect /\ z_ts z' = z_ts z ++ [SLoop (length (z_ts z))] /\ z_log z' = z_log z) \/
  (exists i, e = ZPeek i /\ z_ts z' = z_ts z /\ exists f d, z_log z' = z_log z ++ [VPeek f d]) \/
  (exists i ch t z1 t' sp, e = ZStep i ch /\ nth_error (z_ts z) i = Some t /\ zstep z t ch = Some (z1, t', sp) /\
     z_ts z' = set_nth (z_ts z) i t' ++ olist sp /\ z_log z' = z_log z1 /\ z_crashed z' = z_crashed z1).
Proof.
  unfold serve_step. destruct (z_crashed z) eqn:EC; [discriminate|]. destruct e as [|i|i ch].
  - intros [= <-]. left. cbn. auto.
  - destruct (nth_error (z_kept z) i) as [[[f a] g]|]; [|discriminate]. destruct (mem z a); [|discriminate]. intros [= <-].
    right. left. exists i. cbn. split; [reflexivity|]. split; [reflexivity|]. eauto.
  - destruct (nth_error (z_ts z) i) as [t|] eqn:Hi; [|discriminate].
    destruct (zstep z t ch) as [[[z1 t'] sp]|] eqn:E; [|discriminate]. intros [= <-]. right. right.
    exists i, ch, t, z1, t', sp. cbn. split; [reflexivity|]. split; [exact Hi|]. split; [exact E|].
    split; [destruct sp; reflexivity|]. auto.
Qed.
Lemma count_readers z i t t' sp c : nth_error (z_ts z) i = Some t ->
  b2i (reader c t') + count (reader c) (olist sp) <= b2i (reader c t) ->
  count (reader c) (set_nth (z_ts z) i t' ++ olist sp) <= count (reader c) (z_ts z).
Proof. intros Hi H. rewrite count_app. pose proof (count_set (reader c) (z_ts z) i t' t Hi). lia. Qed.
Lemma serve_readers z e z' c : serve_step z e = Some z' ->
  length (z_ts z) <= length (z_ts z') /\
  (count (reader c) (z_ts z') <= count (reader c) (z_ts z) \/ c = length (z_ts z)).
Proof.
  intros H. apply serve_step_ts in H as [(-> & -> & _)|[(i & -> & -> & _)|(i & ch & t & z1 & t' & sp & -> & Hi & E & -> & _)]].
  - rewrite app_length, count_snoc. cbn. split; [lia|]. destruct (Nat.eqb_spec (length (z_ts z)) c); cbn; [right; congruence|left; lia].
  - auto.
  - rewrite app_length, set_nth_length. split; [lia|]. left. eapply count_readers; eauto. apply zstep_log in E as (_ & H & _). apply H.
Qed.
Lemma rd_step z e z' : rd z -> serve_step z e = Some z' -> rd z'.
Proof.
  intros R H. pose proof H as H0. constructor.
  - intros c. destruct (serve_readers _ _ _ c H) as [_ [L|L]]; [pose proof (rd_one z R c); lia|].
    pose proof (rd_fresh z c R ltac:(lia)) as Z.
    apply serve_step_ts in H0 as [(-> & -> & _)|[(i & -> & -> & _)|(i & ch & t & z1 & t' & sp & -> & Hi & E & -> & _)]].
    + rewrite count_snoc, Z. cbn. destruct (_ =? _); cbn; lia.
    + lia.
    + pose proof (count_readers z i t t' sp c Hi (proj1 (proj2 (zstep_log _ _ _ _ _ _ E)) c)). lia.
  - intros j u d Hj O.
    apply serve_step_ts in H0 as [(-> & T & _)|[(i & -> & T & _)|(i & ch & t & z1 & t' & sp & -> & Hi & E & T & _)]];
      rewrite T in Hj |- *.
    + rewrite app_length. cbn. apply nth_error_snoc_some in Hj as [Hj|[_ ->]]; [pose proof (rd_own z R _ _ _ Hj O); lia|].
      cbn in O. injection O as <-. lia.
    + eapply rd_own; eauto.
    + rewrite app_length, set_nth_length. apply zstep_log in E as (_ & _ & OW & _).
      apply nth_app_sp in Hj as [Hj|Hj].
      * apply set_nth_lookup in Hj as [[-> ->]|[_ Hj]]; [|pose proof (rd_own z R _ _ _ Hj O); lia].
        pose proof (rd_own z R _ _ _ Hi (OW _ _ (or_introl eq_refl) O)). lia.
      * pose proof (rd_own z R _ _ _ Hi (OW _ _ (or_intror Hj) O)). lia.
Qed.
Lemma serve_log z e z' : serve_step z e = Some z' ->
  exists es, z_log z' = z_log z ++ es /\ length es <= 1 /\
    forall d g b, In (VFrame d g b) es -> exists i a, e = ZStep i (CFrame b) /\ nth_error (z_ts z) i = Some (SRead d a).
Proof.
  intros H. apply serve_step_ts in H as [(-> & _ & ->)|[(i & -> & _ & f & d & ->)|(i & ch & t & z1 & t' & sp & -> & Hi & E & _ & -> & _)]].
  - exists []. rewrite app_nil_r. cbn. intuition lia.
  - eexists. split; [reflexivity|]. split; [cbn; lia|]. intros ? ? ? [C|[]]. discriminate.
  - apply zstep_log in E as (_ & _ & _ & es & L & N & V). exists es. split; [exact L|]. split; [exact N|].
    intros d g b I. apply V in I as (a & -> & ->). eauto.
Qed.
Lemma read_frame z i b c a z' : rd z -> nth_error (z_ts z) i = Some (SRead c a) ->
  serve_step z (ZStep i (CFrame b)) = Some z' ->
  z_log z' = z_log z ++ [VFrame c (z_n z) b] \/
  z_log z' = z_log z /\ (z_crashed z' = true \/ count (reader c) (z_ts z') = 0).
Proof.
  intros R Hi H. apply serve_step_ts in H as [(? & _)|[(? & ? & _)|(j & ch & t & z1 & t' & sp & E & Hj & Z & T & L & C)]]; try discriminate.
  injection E as <- <-. rewrite Hi in Hj. injection Hj as <-. rewrite L, T, C. cbn [zstep] in Z.
  destruct (pool_read (z_pool z) a b) as [[[p ok] er]|]; [|injection Z as <- <- <-; cbn; auto].
  destruct ok; [destruct er as [er|]|]; injection Z as <- <- <-; cbn [z_log z_with z_say z_next z_crashed olist]; auto; right; (split; [reflexivity|]); right;
    pose proof (count_set (reader c) (z_ts z) i (SFail c a) _ Hi) as K; cbn in K; rewrite Nat.eqb_refl in K; cbn in K;
    rewrite app_nil_r; pose proof (rd_one z R c); lia.
Qed.

(* ---------- steps of a request manager ---------- *)
Definition res (t : thread) : list (bytes * genericReply) := olist (resolves t).
Lemma thread_res s t c s1 t1 : thread_step s t c = Some (s1, t1) -> resolves t1 = resolves t.
Proof.
  intros E. destruct t, c; cbn [thread_step] in E; try discriminate E; unfold send, recv, add_id, register in E;
    repeat match type of E with
    | Some _ = Some _ => injection E as <- <-; reflexivity
    | context [nth_error ?x ?y] => destruct (nth_error x y); try discriminate E
    | context [map_get ?x ?y ?z] => destruct (map_get x y z)
    | context [?x <? ?y] => destruct (x <? y); try discriminate E
    | context [r_chan ?q] => destruct (r_chan q); try discriminate E
    end.
Qed.
Lemma rstep_call s c s' : rstep s (EvCall c) = Some s' ->
  s' = MkMgr (lastID s) (pending s) (reqs s) (threads s ++ [start c]).
Proof. destruct c; cbn; try (intros [= <-]; reflexivity). destruct (existsb _ _); [|discriminate]. intros [= <-]. reflexivity. Qed.
Lemma rstep_step s i c s' : rstep s (EvStep i c) = Some s' -> exists t s1 t1,
  nth_error (threads s) i = Some t /\ thread_step s t c = Some (s1, t1) /\ s' = set_thread i t1 s1 /\ threads s1 = threads s.
Proof.
  intros H. pose proof H as H0. cbn in H. destruct (nth_error (threads s) i) as [t|] eqn:Ht; [|discriminate].
  destruct (thread_step s t c) as [[s1 t1]|] eqn:E; [|discriminate]. injection H as <-.
  exists t, s1, t1. split; [reflexivity|]. split; [exact E|]. split; [reflexivity|].
  apply rstep_cases in H0 as [(x & X)|(j & c' & t' & s1' & t1' & [= <- <-] & Ht' & E' & _ & TH)]; [|congruence].
  apply (f_equal threads) in X. cbn in X.
  destruct t, c; cbn [thread_step] in E; try discriminate E; unfold send, recv, add_id, register in E;
    repeat match type of E with
    | Some _ = Some _ => injection E as <- <-; reflexivity
    | context [nth_error ?x ?y] => destruct (nth_error x y); try discriminate E
    | context [map_get ?x ?y ?z] => destruct (map_get x y z)
    | context [?x <? ?y] => destruct (x <? y); try discriminate E
    | context [r_chan ?q] => destruct (r_chan q); try discriminate E
    end.
Qed.
Lemma rstep_res s e s' : rstep s e = Some s' ->
  flat_map res (threads s') = flat_map res (threads s) ++ match e with EvCall c => res (start c) | _ => [] end.
Proof.
  destruct e as [c|i c]; intros H.
  - apply rstep_call in H as ->. cbn [threads]. rewrite flat_map_app. cbn. rewrite app_nil_r. reflexivity.
  - apply rstep_step in H as (t & s1 & t1 & Ht & E & -> & TH). unfold set_thread. cbn [threads]. rewrite TH, app_nil_r.
    destruct (set_nth_split _ _ _ Ht) as (l1 & l2 & -> & _ & ->). rewrite !flat_map_app. cbn. unfold res.
    rewrite (thread_res _ _ _ _ _ E). reflexivity.
Qed.
Lemma rstep_created s e s' i r : rstep s e = Some s' -> nth_error (threads s) i = Some (CrR r) -> nth_error (threads s') i = Some (CrR r).
Proof.
  destruct e as [c|j c]; intros H Hi.
  - apply rstep_call in H as ->. cbn [threads]. rewrite nth_error_app1; [exact Hi|]. apply nth_error_Some. congruence.
  - apply rstep_step in H as (t & s1 & t1 & Ht & E & -> & TH). unfold set_thread. cbn [threads]. rewrite TH.
    destruct (Nat.eq_dec j i) as [->|N]; [|rewrite set_nth_ne by assumption; exact Hi].
    rewrite Hi in Ht. injection Ht as <-. destruct c; discriminate E.
Qed.
Lemma rstep_id s e s' r id : rstep s e = Some s' -> id_at (reqs s) r = Some id -> id_at (reqs s') r = Some id.
Proof.
  destruct e as [c|j c]; intros H Hi.
  - apply rstep_call in H as ->. exact Hi.
  - apply rstep_step in H as (t & s1 & t1 & Ht & E & -> & TH). unfold set_thread. cbn [reqs].
    destruct t, c; cbn [thread_step] in E; try discriminate E; unfold send, recv, add_id, register in E;
    repeat match type of E with
    | Some _ = Some _ => injection E as <- <-; cbn; try exact Hi
    | context [nth_error ?x ?y] => destruct (nth_error x y) eqn:?; try discriminate E
    | context [map_get ?x ?y ?z] => destruct (map_get x y z)
    | context [?x <? ?y] => destruct (x <? y); try discriminate E
    | context [r_chan ?q] => destruct (r_chan q); try discriminate E
    end; try (erewrite id_at_set by eassumption; exact Hi).
    rewrite id_at_app. pose proof (id_at_lt _ _ _ Hi) as L. destruct (Nat.ltb_spec r (length (reqs s))); [exact Hi|lia].
Qed.

(* ---------- the invariant ---------- *)
Definition tagged (h : option nat * bytes) : bool := match fst h with Some _ => true | None => false end.
Definition outs (c : nat) (log : list vevent) : list (option nat * bytes) :=
  flat_map (fun e => match emitted e with Some (d, f, w) => if d =? c then [(Some f, w)] else [] | None => [] end) log.
Definition reqs_in (l : list (option (nat * say) * bytes)) : list nat :=
  flat_map (fun e => match fst e with Some (r, _) => [r] | None => [] end) l.
Definition enum {A} (l : list A) : list (nat * A) := combine (seq 0 (length l)) l.
Definition called (size : nat) (e : nat * (option nat * bytes)) : list (bytes * genericReply) :=
  match on_frame size (fst e) (snd (snd e)) with Some cl => res (start cl) | None => [] end.
Lemma enum_snoc {A} (l : list A) x : enum (l ++ [x]) = enum l ++ [(length l, x)].
Proof.
  unfold enum. rewrite app_length, Nat.add_1_r, seq_S. cbn [Nat.add].
  assert (G : forall (a : list nat) (b : list A) u v, length a = length b -> combine (a ++ [u]) (b ++ [v]) = combine a b ++ [(u, v)]).
  { induction a; destruct b; cbn; intros; try discriminate; [reflexivity|]. f_equal. auto. }
  apply G. apply seq_length.
Qed.
Lemma enum_nth {A} (l : list A) k x : In (k, x) (enum l) <-> nth_error l k = Some x.
Proof.
  revert k x. pattern l. apply List.rev_ind; clear l; [intros [|k] x; cbn; split; try tauto; discriminate|]. intros y l IH k x.
  rewrite enum_snoc, in_app_iff, IH, nth_error_snoc_some. cbn. split; intros [H|H]; auto.
  - destruct H as [[= <- <-]|[]]. auto.
  - destruct H as [-> ->]. auto.
Qed.

Record pinv (size : nat) (z : serve) (c : nat) (p : peer) : Prop := {
  p_m : rreach anything (q_mgr p);
  p_sent : forall o b, In (o, b) (q_sent p) ->
    match o with
    | Some (r, x) => (exists i, nth_error (threads (q_mgr p)) i = Some (CrR r)) /\
                     exists id, id_at (reqs (q_mgr p)) r = Some id /\ frame_of id x = Some b
    | None => first_in request_types b = false
    end;
  p_once : NoDup (reqs_in (q_sent p));
  p_up : exists rej, map snd (accepted c (z_log z)) ++ rej ++ q_up p = map snd (q_sent p) /\
    (rej = [] \/ z_crashed z = true \/ count (reader c) (z_ts z) = 0 /\ c < length (z_ts z));
  p_down : filter tagged (q_got p ++ q_down p) = outs c (z_log z);
  p_push : forall w, In (None, w) (q_got p ++ q_down p) -> first_in (reply_types ++ error_types) w = false;
  p_calls : flat_map res (threads (q_mgr p)) = flat_map (called size) (enum (q_got p)) }.
Record linv (buf size : nat) (n : link) : Prop := {
  l_z : zreach buf polite (n_srv n);
  l_rd : rd (n_srv n);
  l_p : forall c, pinv size (n_srv n) c (n_peer n c) }.

Definition after (c : nat) (es : list vevent) (p : peer) : peer :=
  fold_left (fun p e => match emitted e with Some (d, f, w) => if d =? c then put_down (Some f) w p else p | None => p end) es p.
Lemma deliver_peer es : forall n c, n_peer (fold_left deliver es n) c = after c es (n_peer n c) /\ n_srv (fold_left deliver es n) = n_srv n.
Proof.
  induction es as [|e es IH]; intros n c; cbn [fold_left after]; [auto|]. destruct (IH (deliver n e) c) as [-> ->].
  unfold deliver. destruct (emitted e) as [[[d f] w]|] eqn:E; [|auto]. cbn. rewrite Nat.eqb_sym.
  destruct (Nat.eqb_spec d c) as [->|N]; auto.
Qed.
Lemma after_spec c es : forall p, q_mgr (after c es p) = q_mgr p /\ q_sent (after c es p) = q_sent p /\ q_up (after c es p) = q_up p /\
  q_got (after c es p) = q_got p /\ q_down (after c es p) = q_down p ++ outs c es.
Proof.
  induction es as [|e es IH]; intros p; cbn [after fold_left outs flat_map].
  - rewrite app_nil_r. auto.
  - match goal with |- context [fold_left _ es ?x] => destruct (IH x) as (H1 & H2 & H3 & H4 & H5); fold (after c es x) end.
    rewrite H1, H2, H3, H4, H5. destruct (emitted e) as [[[d f] w]|]; [|auto]. destruct (d =? c); cbn; [|auto].
    rewrite <- app_assoc. auto.
Qed.
Lemma outs_tagged c es : filter tagged (outs c es) = outs c es.
Proof.
  induction es as [|e es IH]; [reflexivity|]. cbn [outs flat_map]. fold (outs c es). rewrite filter_app, IH. f_equal.
  destruct (emitted e) as [[[d f] w]|]; [|reflexivity]. destruct (d =? c); reflexivity.
Qed.
Lemma outs_app c l1 l2 : outs c (l1 ++ l2) = outs c l1 ++ outs c l2.
Proof. apply flat_map_app. Qed.
Lemma accepted_app c l1 l2 : accepted c (l1 ++ l2) = accepted c l1 ++ accepted c l2.
Proof. apply flat_map_app. Qed.
Lemma outs_in c es o w : In (o, w) (outs c es) <-> exists f e, o = Some f /\ In e es /\ emitted e = Some (c, f, w).
Proof.
  unfold outs. rewrite in_flat_map. split.
  - intros (e & He & H). destruct (emitted e) as [[[d f] v]|] eqn:E; [|destruct H]. destruct (Nat.eqb_spec d c) as [->|]; [|destruct H].
    destruct H as [[= <- <-]|[]]. eauto.
  - intros (f & e & -> & He & E). exists e. rewrite E, Nat.eqb_refl. cbn. auto.
Qed.
Lemma accepted_in c log f b : In (f, b) (accepted c log) <-> In (VFrame c f b) log.
Proof.
  unfold accepted. rewrite in_flat_map. split.
  - intros (e & He & H). destruct e; try destruct H. destruct (Nat.eqb_spec c0 c) as [->|]; [|destruct H].
    destruct H as [[= <- <-]|[]]. exact He.
  - intros H. eexists. split; [exact H|]. cbn. rewrite Nat.eqb_refl. cbn. auto.
Qed.
Lemma no_frames c es : (forall d g b, In (VFrame d g b) es -> d <> c) -> accepted c es = [].
Proof.
  intros H. destruct (accepted c es) as [|[f b] l] eqn:E; [reflexivity|]. exfalso.
  apply (H c f b); [|reflexivity]. apply accepted_in. rewrite E. cbn. auto.
Qed.

(* a step of the server, seen by client c; up: what is left on the way to the server *)
Lemma pinv_serve size z c p e z' es up : rd z -> pinv size z c p -> serve_step z e = Some z' -> z_log z' = z_log z ++ es ->
  (up = q_up p /\ accepted c es = [] \/
   exists b, q_up p = b :: up /\ (map snd (accepted c es) = [b] \/ accepted c es = [] /\ (z_crashed z' = true \/ count (reader c) (z_ts z') = 0)) /\
     0 < count (reader c) (z_ts z)) ->
  pinv size z' c (after c es (take_up up p)).
Proof.
  intros R P H L U. destruct (after_spec c es (take_up up p)) as (H1 & H2 & H3 & H4 & H5).
  assert (CR : z_crashed z = false) by (unfold serve_step in H; destruct (z_crashed z); [discriminate|reflexivity]).
  constructor; rewrite ?H1, ?H2, ?H3, ?H4, ?H5; cbn [take_up q_mgr q_sent q_up q_got q_down]; try apply P.
  - destruct (p_up _ _ _ _ P) as (rej & E & D). rewrite L, accepted_app, map_app.
    assert (D' : rej = [] \/ count (reader c) (z_ts z) = 0 /\ c < length (z_ts z)) by (destruct D as [D|[D|D]]; [auto|congruence|auto]).
    clear D. destruct (serve_readers _ _ _ c H) as [LL RR].
    destruct U as [[-> ->]|(b & Q & A & Z)].
    + exists rej. rewrite app_nil_r. split; [exact E|]. destruct D' as [->|[D1 D2]]; [auto|]. right. right. split; [|lia].
      destruct RR; [lia|]. lia.
    + destruct D' as [->|[D1 D2]]; [|lia]. cbn [app] in E. rewrite Q in E. destruct A as [A|[A B]].
      * exists []. rewrite A, <- app_assoc. auto.
      * exists [b]. rewrite A, app_nil_r. split; [exact E|]. right. destruct B as [B|B]; [auto|]. right. split; [exact B|].
        apply Nat.lt_le_trans with (length (z_ts z)); [|exact LL]. destruct (Nat.lt_ge_cases c (length (z_ts z))); [assumption|].
        pose proof (rd_fresh z c R H0). lia.
  - rewrite L, outs_app, app_assoc, filter_app, outs_tagged. f_equal. apply P.
  - intros w. rewrite app_assoc, in_app_iff. intros [I|I]; [eapply p_push; eauto|]. apply outs_in in I as (f & x & C & _). discriminate.
Qed.
Lemma take_up_same p : take_up (q_up p) p = p. Proof. destruct p; reflexivity. Qed.
Lemma bytes_eqb_eq a b : bytes_eqb a b = true -> a = b.
Proof. destruct (beqb a b); [auto|discriminate]. Qed.
Lemma skipn_app_exact {A} (l1 l2 : list A) : skipn (length l1) (l1 ++ l2) = l2.
Proof. rewrite skipn_app, skipn_all, Nat.sub_diag. reflexivity. Qed.

Lemma linv_serve buf size n e n' : linv buf size n -> link_step size n (LServe e) = Some n' -> linv buf size n'.
Proof.
  intros [LZ LR LP] H. cbn [link_step] in H. destruct (read_up n e) as [n1|] eqn:RU; [|discriminate].
  destruct (serve_step (n_srv n) e) as [z'|] eqn:S; [|discriminate].
  destruct (serve_log _ _ _ S) as (es & L & N & V). rewrite L, skipn_app_exact in H. injection H as <-.
  assert (PO : polite e).
  { intros i ->. discriminate. }
  destruct (deliver_peer es (MkLink z' (n_peer n1)) 0) as [_ SRV]. cbn [n_srv] in SRV.
  constructor; rewrite ?SRV.
  - eapply ZR_step; eauto.
  - eapply rd_step; eauto.
  - intros c. destruct (deliver_peer es (MkLink z' (n_peer n1)) c) as [-> _]. cbn [n_peer].
    assert (UP : exists up, n_peer n1 c = take_up up (n_peer n c) /\
      (up = q_up (n_peer n c) /\ accepted c es = [] \/
       exists b, q_up (n_peer n c) = b :: up /\ (map snd (accepted c es) = [b] \/ accepted c es = [] /\ (z_crashed z' = true \/ count (reader c) (z_ts z') = 0)) /\
         0 < count (reader c) (z_ts (n_srv n)))).
    { assert (K : (forall i b, e <> ZStep i (CFrame b)) -> exists up, n_peer n c = take_up up (n_peer n c) /\
        (up = q_up (n_peer n c) /\ accepted c es = [] \/
       exists b, q_up (n_peer n c) = b :: up /\ (map snd (accepted c es) = [b] \/ accepted c es = [] /\ (z_crashed z' = true \/ count (reader c) (z_ts z') = 0)) /\
         0 < count (reader c) (z_ts (n_srv n)))).
      { intros NE. exists (q_up (n_peer n c)). split; [symmetry; apply take_up_same|]. left. split; [reflexivity|].
        apply no_frames. intros d g b I _. apply V in I as (i & a & -> & _). eapply NE; eauto. }
      destruct e as [|i|i ch]; cbn [read_up] in RU; try (injection RU as <-; apply K; discriminate).
      destruct ch; try discriminate RU; try (injection RU as <-; apply K; discriminate). clear K.
      destruct (nth_error (z_ts (n_srv n)) i) as [t|] eqn:Hi; [|discriminate]. destruct t; try discriminate RU.
      destruct (q_up (n_peer n c0)) as [|b' rest] eqn:Q; [discriminate|].
      destruct (bytes_eqb b b') eqn:EB; [|discriminate]. apply bytes_eqb_eq in EB as <-. injection RU as <-.
      cbn [set_peer n_peer]. destruct (Nat.eqb_spec c c0) as [->|NC].
      - exists rest. split; [reflexivity|]. right. exists b. split; [exact Q|].
        pose proof (read_frame _ _ _ _ _ _ LR Hi S) as RF. rewrite L in RF. split.
        + destruct RF as [RF|[RF RF']].
          * apply app_inv_head in RF as ->. left. cbn. rewrite Nat.eqb_refl. reflexivity.
          * rewrite <- (app_nil_r (z_log (n_srv n))) in RF at 2. apply app_inv_head in RF as ->. auto.
        + pose proof (count_pos (reader c0) _ _ _ Hi) as CP. cbn in CP. rewrite Nat.eqb_refl in CP. specialize (CP eq_refl). lia.
      - exists (q_up (n_peer n c)). split; [symmetry; apply take_up_same|]. left. split; [reflexivity|].
        apply no_frames. intros d g b1 I ->. apply V in I as (i1 & a1 & [= <- <-] & X). rewrite Hi in X. congruence. }
    destruct UP as (up & -> & U). eapply pinv_serve; eauto.
Qed.

(* steps of client c *)
Lemma linv_peer buf size n c p : linv buf size n -> pinv size (n_srv n) c p -> linv buf size (set_peer c p n).
Proof.
  intros [LZ LR LP] P. constructor; cbn [set_peer n_srv n_peer]; auto. intros d. destruct (Nat.eqb_spec d c) as [->|]; auto.
Qed.
Lemma sent_step m e m' l : rstep m e = Some m' ->
  (forall o b, In (o, b) l ->
    match o with
    | Some (r, x) => (exists i, nth_error (threads m) i = Some (CrR r)) /\ exists id, id_at (reqs m) r = Some id /\ frame_of id x = Some b
    | None => first_in request_types b = false
    end) ->
  forall o b, In (o, b) l ->
    match o with
    | Some (r, x) => (exists i, nth_error (threads m') i = Some (CrR r)) /\ exists id, id_at (reqs m') r = Some id /\ frame_of id x = Some b
    | None => first_in request_types b = false
    end.
Proof.
  intros S H o b I. specialize (H o b I). destruct o as [[r x]|]; [|exact H]. destruct H as ((i & Hi) & id & Hid & F). split.
  - exists i. eapply rstep_created; eauto.
  - exists id. split; [eapply rstep_id; eauto|exact F].
Qed.
Lemma unsent_spec r p : unsent r p = true -> ~ In r (reqs_in (q_sent p)).
Proof.
  unfold unsent. intros H I. apply negb_true_iff in H. apply in_flat_map in I as ([o b] & I & J). cbn in J.
  assert (existsb (fun e : option (nat * say) * bytes => match fst e with Some (r', _) => r =? r' | None => false end) (q_sent p) = true); [|congruence].
  apply existsb_exists. exists (o, b). split; [exact I|]. cbn. destruct o as [[r' x]|]; [|destruct J]. destruct J as [->|[]]. apply Nat.eqb_refl.
Qed.
Lemma linv_step buf size n e n' : linv buf size n -> link_step size n e = Some n' -> linv buf size n'.
Proof.
  intros I H. destruct e as [c e|c i x|c b|e|c b|c].
  - pose proof (l_p _ _ _ I c) as P.
    assert (exists m, rstep (q_mgr (n_peer n c)) e = Some m /\ n' = set_peer c (with_mgr m (n_peer n c)) n /\
              match e with EvCall cl => res (start cl) | _ => [] end = []) as (m & S & -> & NR).
    { destruct e as [[]|]; cbn [link_step] in H; try discriminate H;
      match type of H with context [rstep ?a ?b] => destruct (rstep a b) as [m|] eqn:S; [|discriminate] end;
      injection H as <-; exists m; auto. }
    apply linv_peer; [exact I|]. constructor; cbn [with_mgr q_mgr q_sent q_up q_down q_got]; try apply P.
    + econstructor; [apply P|exact Logic.I|exact S].
    + eapply sent_step; [exact S|apply P].
    + rewrite (rstep_res _ _ _ S), NR, app_nil_r. apply P.
  - pose proof (l_p _ _ _ I c) as P. cbn [link_step] in H.
    destruct (nth_error (threads (q_mgr (n_peer n c))) i) as [t|] eqn:Hi; [|discriminate]. destruct t; try discriminate H.
    destruct (nth_error (reqs (q_mgr (n_peer n c))) r) as [q|] eqn:Q; [|discriminate].
    destruct (frame_of (r_id q) x) as [b|] eqn:F; [|discriminate]. destruct (unsent r (n_peer n c)) eqn:U; [|discriminate].
    injection H as <-. apply linv_peer; [exact I|]. constructor; cbn [put_up q_mgr q_sent q_up q_down q_got]; try apply P.
    + intros o b0 J. apply in_app_iff in J as [J|[[= <- <-]|[]]]; [apply (p_sent _ _ _ _ P _ _ J)|].
      split; [eauto|]. exists (r_id q). split; [apply id_at_some; eauto|exact F].
    + unfold reqs_in. rewrite flat_map_app. cbn [flat_map fst]. apply NoDup_snoc. split; [apply P|]. apply unsent_spec, U.
    + destruct (p_up _ _ _ _ P) as (rej & E & D). exists rej. split; [|exact D]. rewrite map_app, <- E, <- !app_assoc. reflexivity.
  - pose proof (l_p _ _ _ I c) as P. cbn [link_step] in H. destruct (first_in request_types b) eqn:F; [discriminate|].
    injection H as <-. apply linv_peer; [exact I|]. constructor; cbn [put_up q_mgr q_sent q_up q_down q_got]; try apply P.
    + intros o b0 J. apply in_app_iff in J as [J|[[= <- <-]|[]]]; [apply (p_sent _ _ _ _ P _ _ J)|]. exact F.
    + unfold reqs_in. rewrite flat_map_app. cbn [flat_map fst app]. rewrite app_nil_r. apply P.
    + destruct (p_up _ _ _ _ P) as (rej & E & D). exists rej. split; [|exact D]. rewrite map_app, <- E, <- !app_assoc. reflexivity.
  - eapply linv_serve; eauto.
  - pose proof (l_p _ _ _ I c) as P. cbn [link_step] in H. destruct (first_in (reply_types ++ error_types) b) eqn:F; [discriminate|].
    injection H as <-. apply linv_peer; [exact I|]. constructor; cbn [put_down q_mgr q_sent q_up q_down q_got]; try apply P.
    + rewrite app_assoc, filter_app. cbn. rewrite app_nil_r. apply P.
    + intros w. rewrite app_assoc, in_app_iff. intros [J|[[= <-]|[]]]; [apply P, J|exact F].
  - pose proof (l_p _ _ _ I c) as P. cbn [link_step] in H. destruct (q_down (n_peer n c)) as [|h rest] eqn:D; [discriminate|].
    assert (GD : (q_got (n_peer n c) ++ [h]) ++ rest = q_got (n_peer n c) ++ q_down (n_peer n c)) by (rewrite D, <- app_assoc; reflexivity).
    destruct (on_frame size (length (q_got (n_peer n c))) (snd h)) as [cl|] eqn:OF.
    + destruct (rstep (q_mgr (n_peer n c)) (EvCall cl)) as [m|] eqn:S; [|discriminate]. injection H as <-.
      apply linv_peer; [exact I|]. constructor; cbn [take_down with_mgr q_mgr q_sent q_up q_down q_got]; rewrite ?GD; try apply P.
      * econstructor; [apply P|exact Logic.I|exact S].
      * eapply sent_step; [exact S|apply P].
      * rewrite (rstep_res _ _ _ S), enum_snoc, flat_map_app. cbn [flat_map]. rewrite app_nil_r. unfold called at 2. cbn [fst snd]. rewrite OF.
        f_equal. apply P.
    + injection H as <-. apply linv_peer; [exact I|].
      constructor; cbn [take_down with_mgr q_mgr q_sent q_up q_down q_got]; rewrite ?GD; try apply P.
      rewrite enum_snoc, flat_map_app. cbn [flat_map]. rewrite app_nil_r. unfold called at 2. cbn [fst snd]. rewrite OF, app_nil_r. apply P.
Qed.
Lemma linv_new buf size : linv buf size (new_link buf).
Proof.
  constructor; cbn [new_link n_srv n_peer].
  - constructor.
  - constructor; cbn; [lia|]. intros [|i]; discriminate.
  - intros c. constructor; cbn; try constructor; try tauto; try reflexivity.
    exists []. auto.
Qed.
Lemma lreach_linv buf size n : lreach buf size n -> linv buf size n.
Proof. induction 1; [apply linv_new|eapply linv_step; eauto]. Qed.
