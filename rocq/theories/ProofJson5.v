(* Proofs about JSON: values on their way through texts, session files, sessions. *)
From Coq Require Import List Arith NArith ZArith Lia Bool.
From Coq Require Import ZifyBool ZifyNat ZifyN.
From Verif Require Import BaseBytes SpecText ModelMessage ModelPayload ProofText ModelFiles SpecFiles ModelJson SpecJson ProofJson ProofJson2 ProofJson3 ProofJson4.
Import ListNotations.
Open Scope nat_scope.

(* ----- what strings denote is unique and is UTF-8 ----- *)
Lemma ascii_one b : (b2N b < 128)%N -> utf8_char [b].
Proof. intros H. apply ascii_char, H. Qed.
Lemma no_char_bad b s : no_char (b :: s) -> (128 <= b2N b)%N /\ rune_len (b :: s) = 0.
Proof.
  intros N. split.
  - destruct (N.leb_spec 128 (b2N b)) as [|L]; [assumption|]. exfalso. apply (N [b] s); [reflexivity|apply ascii_one, L].
  - destruct (rune_len (b :: s)) as [|m] eqn:R; [reflexivity|]. exfalso. destruct (rune_len_char _ _ R) as (U & _). apply (N (firstn (S m) (b :: s)) (skipn (S m) (b :: s))); [|exact U]. rewrite firstn_skipn. reflexivity.
Qed.
Lemma denotes_unq r s : denotes r s -> s = unq 0 r.
Proof.
  induction 1 as [|c r s U N D IH|b r s N D IH|c r s I D IH|a b c d u r s H Nh Nl D IH|a b c d u a' b' c' d' u' r s H Hh H' Hl D IH|a b c d u r s H HL N D IH]; subst.
  - reflexivity.
  - destruct (char_len c r U) as [(a & -> & X)|(R & L & a & c' & -> & X)].
    + cbn [app]. rewrite unq_ascii; [reflexivity|exact X|intros ->; apply N; reflexivity].
    + rewrite unq_multi; [reflexivity|exact U|lia].
  - apply no_char_bad in N as [X R]. rewrite unq_bad by assumption. reflexivity.
  - destruct (simple_ok c I) as [I1 I2]. change (n2b 92) with backslash. rewrite unq_esc by exact I1. rewrite I2. reflexivity.
  - pose proof (hex4_lt _ _ _ _ _ H). rewrite (unq_u _ _ _ _ _ _ H). unfold high, low in *. destruct ((0xD800 <=? u)%N && (u <? 0xE000)%N) eqn:E; [lia|].
    rewrite EncodeRune_ok by (unfold scalar; lia). reflexivity.
  - rewrite (unq_u _ _ _ _ _ _ H). unfold high, low in *. destruct ((0xD800 <=? u)%N && (u <? 0xE000)%N) eqn:E; [|lia]. cbn [u_esc app].
    rewrite (proj2 (getu4_spec a' b' c' d' r u') H').
    change (beq (n2b 92) backslash && beq (n2b 117) x75) with true. cbv iota. unfold pair16. destruct (_ && _ && _ && _)%N eqn:PP in |- *; [|exfalso; lia].
    rewrite EncodeRune_ok by (unfold scalar; lia). cbn [unq]. f_equal. f_equal. lia.
  - rewrite (unq_u _ _ _ _ _ _ H). unfold high, low in *. destruct ((0xD800 <=? u)%N && (u <? 0xE000)%N) eqn:E; [|lia].
    destruct r as [|b2 [|c2 t2]]; [reflexivity|reflexivity|]. destruct (beq_spec b2 backslash) as [->|]; [|reflexivity]. destruct (beq_spec c2 x75) as [->|]; [|reflexivity]. cbn [andb].
    destruct (getu4 t2) as [r2|] eqn:G; [|reflexivity]. unfold pair16. destruct (_ && _ && _ && _)%N eqn:PP in |- *; [|reflexivity]. exfalso. apply N. split; [lia|].
    destruct t2 as [|a1 [|b1 [|c1 [|d1 t]]]]; try discriminate G. apply getu4_spec in G. exists a1, b1, c1, d1, r2, t. split; [reflexivity|]. split; [exact G|]. lia.
Qed.
Theorem unq_spec raw s : chars raw -> (denotes raw s <-> s = unq 0 raw).
Proof. intros C. split; [apply denotes_unq|intros ->; apply unq_denotes, C]. Qed.
Lemma denotes_wf r s : denotes r s -> utf8_wf s.
Proof.
  assert (U : utf8_char ufffd) by apply ufffd_char.
  induction 1 as [|c r s Uc N D IH|b r s N D IH|c r s I D IH|a b c d u r s H Nh Nl D IH|a b c d u a' b' c' d' u' r s H Hh H' Hl D IH|a b c d u r s H HL N D IH].
  - constructor.
  - constructor; assumption.
  - constructor; assumption.
  - apply (WF_char [n2b (escaped c)]); [|exact IH]. apply ascii_one. revert I. destruct c; intros I; try (vm_compute; reflexivity); exfalso; vm_compute in I; intuition discriminate.
  - constructor; [|exact IH]. apply utf8_of_wf. pose proof (hex4_lt _ _ _ _ _ H). unfold high, low, scalar in *. lia.
  - constructor; [|exact IH]. apply utf8_of_wf. unfold high, low, scalar in *. lia.
  - constructor; assumption.
Qed.
Lemma unq_wf raw : chars raw -> utf8_wf (unq 0 raw).
Proof. intros C. eapply denotes_wf, unq_denotes, C. Qed.

(* ----- values ----- *)
Lemma forall2_map {A B C} (f : A -> B) (R : B -> C -> Prop) l r : Forall2 R (map f l) r <-> Forall2 (fun a => R (f a)) l r.
Proof.
  split; intros H.
  - remember (map f l) as l2 eqn:E. revert l E. induction H as [|b c lb lc X Y IH]; intros [|a l] E; try discriminate; constructor; injection E as -> ->; auto.
  - induction H; constructor; auto.
Qed.
Section Values.
Context {F : Type} (T : texts F) (of_int : Z -> F) (S : sound T of_int).
Theorem tree_iff (v : gval F) : (exists j, tree T v = Some j) <-> carried T v.
Proof.
  induction v as [|b|z|f|s| |l IH| |l IH|] using gval_rect'; cbn [tree].
  - split; [constructor|eauto].
  - split; [constructor|eauto].
  - destruct (is_int z) eqn:E; [apply is_int_spec in E; split; [constructor; exact E|eauto]|]. split; [intros [j H]; discriminate|].
    intros H. inversion H; subst. assert (is_int z = true) by (apply is_int_spec; assumption). congruence.
  - split; [|intros H; inversion H as [| | |? l E| | | | |]; subst; rewrite E; cbn; eauto]. intros [j H]. destruct (f_lit T f) as [l|] eqn:E; [|discriminate]. econstructor; exact E.
  - split; [constructor|eauto].
  - split; [constructor|eauto].
  - split.
    + intros [j H]. destruct (all (map (tree T) l)) as [js|] eqn:E; [|discriminate]. apply all_some in E. rewrite forall2_map in E. constructor.
      clear H. induction E; inversion IH as [|? ? A B]; subst; constructor; auto. apply A. eauto.
    + intros H. inversion H as [| | | | | |? Q| |]; subst. assert (exists js, all (map (tree T) l) = Some js) as [js ->]; [|cbn; eauto].
      clear H. induction l as [|v l IHl]; [cbn; eauto|]. inversion IH as [|? ? A B]; subst. inversion Q; subst. destruct IHl as [js E]; try assumption.
      apply A in H1 as [j Ej]. cbn [map all]. rewrite Ej, E. cbn. eauto.
  - split; [constructor|eauto].
  - split.
    + intros [j H]. destruct (vals _) as [js|] eqn:E in H; [|discriminate]. apply vals_some in E. rewrite forall2_map in E. constructor.
      clear H. induction E as [|[k v] [k' j'] l js [_ X] E IHE]; inversion IH as [|? ? A B]; subst; constructor; auto. apply A. eauto.
    + intros H. inversion H as [| | | | | | | |? Q]; subst. assert (exists js, vals (map (fun kv => (fst kv, tree T (snd kv))) l) = Some js) as [js ->]; [|cbn; eauto].
      clear H. induction l as [|[k v] l IHl]; [cbn; eauto|]. inversion IH as [|? ? A B]; subst. inversion Q; subst. destruct IHl as [js E]; try assumption.
      apply A in H1 as [j Ej]. cbn [snd] in Ej. unfold vals in *. cbn [map all fst snd]. rewrite Ej, E. cbn. eauto.
  - split; [intros [j H]; discriminate|intros H; inversion H].
Qed.
Lemma forall2_left {A B} (R : A -> B -> Prop) (P : B -> Prop) l r : Forall2 R l r -> (forall a b, R a b -> In a l -> P b) -> Forall P r.
Proof. induction 1 as [|a b l r X Y IH]; intros H; constructor; [apply (H a b X); left; reflexivity|]. apply IH. intros a' b' Q I. apply (H a' b' Q). right. exact I. Qed.
Theorem tree_leaves (v : gval F) : forall j, tree T v = Some j -> leaves j /\ wf_leaves j.
Proof.
  induction v as [|b|z|f|s| |l IH| |l IH|] using gval_rect'; cbn [tree]; intros j H.
  - injection H as <-. split; constructor.
  - injection H as <-. split; constructor.
  - destruct (is_int z) eqn:E; [|discriminate]. injection H as <-. apply dec_number in E. split; constructor; exact E.
  - destruct (f_lit T f) as [lit|] eqn:E; [|discriminate]. injection H as <-. apply (so_lit T of_int S) in E as [E _]. split; constructor; exact E.
  - injection H as <-. split; constructor; [apply esc_chars|apply esc_wf].
  - injection H as <-. split; constructor.
  - destruct (all (map (tree T) l)) as [js|] eqn:E; [|discriminate]. injection H as <-. apply all_some in E. rewrite forall2_map in E. rewrite Forall_forall in IH.
    split; constructor; (eapply forall2_left; [exact E|]); intros a b X I; apply (IH a I b X).
  - injection H as <-. split; constructor.
  - destruct (vals _) as [js|] eqn:E in H; [|discriminate]. injection H as <-. apply vals_some in E. rewrite forall2_map in E. rewrite Forall_forall in IH.
    assert (Q : Forall (fun kv => leaves (snd kv) /\ wf_leaves (snd kv)) js).
    { eapply forall2_left; [exact E|]. intros a b [_ X] I. apply (IH a I _ X). }
    assert (Q' := mputs_all _ js Q [] (Forall_nil _)). fold (msort js) in Q'. clear Q. rename Q' into Q.
    split; constructor; apply Forall_map; cbn [fst snd]; (eapply Forall_impl; [|exact Q]); cbv beta; intros kv [A B]; (split; [|assumption]); [apply esc_chars|apply esc_wf].
  - discriminate.
Qed.
Lemma entries_interp (l : list (bytes * gval F)) js : vals (map (fun kv => (fst kv, tree T (snd kv))) l) = Some js ->
  Forall (fun kv => forall j, tree T (snd kv) = Some j -> interp T j = Some (become of_int (snd kv))) l ->
  vals (map (fun kv => (unq 0 (fst kv), interp T (snd kv))) (map (fun kv => (esc 0 (fst kv), snd kv)) (msort js))) =
    Some (map (fun kv => (coerce 0 (fst kv), snd kv)) (msort (map (fun kv => (fst kv, become of_int (snd kv))) l))).
Proof.
  intros E IH. apply vals_some in E. rewrite forall2_map in E. apply vals_some. rewrite map_map, forall2_map. cbn [fst snd].
  assert (Q : Forall2 (fun x y => fst x = fst y /\ interp T (snd x) = Some (snd y)) js (map (fun kv => (fst kv, become of_int (snd kv))) l)).
  { clear -E IH. induction E as [|[k v] [k' j] l js [A B] E IHE]; [constructor|]. inversion IH as [|? ? X Y]; subst. cbn [map fst snd] in *. constructor; [|apply IHE, Y].
    cbn [fst snd]. split; [congruence|]. apply X, B. }
  apply (msort_rel (fun j v => interp T j = Some v)) in Q. clear E IH. revert Q. generalize (msort js) as a. intros a. generalize (msort (map (fun kv => (fst kv, become of_int (snd kv))) l)) as b. intros b Q.
  induction Q as [|[k v] [k' j] a b [X Y] Q IHQ]; cbn [map]; constructor; [|exact IHQ]. cbn [fst snd] in *. subst k'. rewrite esc_unq. auto.
Qed.
Theorem interp_tree (v : gval F) : forall j, tree T v = Some j -> interp T j = Some (become of_int v).
Proof.
  induction v as [|b|z|f|s| |l IH| |l IH|] using gval_rect'; cbn [tree]; intros j H.
  - injection H as <-. reflexivity.
  - injection H as <-. reflexivity.
  - destruct (is_int z) eqn:E; [|discriminate]. injection H as <-. cbn [interp]. rewrite (so_int T of_int S (dec z) z (dec_spells z E) (proj1 (is_int_spec z) E)). reflexivity.
  - destruct (f_lit T f) as [lit|] eqn:E; [|discriminate]. injection H as <-. apply (so_lit T of_int S) in E as [_ E]. cbn [interp]. rewrite E. reflexivity.
  - injection H as <-. cbn [interp become]. rewrite esc_unq. reflexivity.
  - injection H as <-. reflexivity.
  - destruct (all (map (tree T) l)) as [js|] eqn:E; [|discriminate]. injection H as <-. apply all_some in E. rewrite forall2_map in E.
    cbn [interp become]. assert (all (map (interp T) js) = Some (map (become of_int) l)) as ->; [|reflexivity].
    apply all_some. rewrite forall2_map. induction E as [|v j l js X E IHE]; [constructor|]. inversion IH; subst. cbn [map]. constructor; auto.
  - injection H as <-. reflexivity.
  - destruct (vals _) as [js|] eqn:E in H; [|discriminate]. injection H as <-. cbn [interp become]. rewrite (entries_interp l js E IH). reflexivity.
  - discriminate.
Qed.
Theorem kept_become (v : gval F) : kept v -> become of_int v = v.
Proof.
  induction v as [|b|z|f|s| |l IH| |l IH|] using gval_rect'; intros H; inversion H; subst; cbn [become]; try reflexivity.
  - f_equal. apply wf_coerce. assumption.
  - do 2 f_equal. rewrite <- (map_id l) at 2. apply map_ext_in. rewrite Forall_forall in *. auto.
  - assert (E : map (fun kv => (fst kv, become of_int (snd kv))) l = l).
    { rewrite <- (map_id l) at 2. apply map_ext_in. intros [k v] I. rewrite Forall_forall in *. cbn [fst snd]. f_equal. apply (IH (k, v) I). apply (H2 (k, v) I). }
    rewrite E, (msort_id l) by assumption.
    assert (E2 : map (fun kv : bytes * gval F => (coerce 0 (fst kv), snd kv)) l = l).
    { rewrite <- (map_id l) at 2. apply map_ext_in. intros [k v] I. rewrite Forall_forall in *. cbn [fst snd]. f_equal. apply wf_coerce. apply (H2 (k, v) I). }
    rewrite E2, (msort_id l) by assumption. reflexivity.
Qed.
Definition fine (l : list (bytes * gval F)) : Prop := Forall (fun kv => utf8_wf (fst kv) /\ kept (snd kv) /\ carried T (snd kv)) l.
Lemma entries_fine (l : list (bytes * json)) m : Forall (fun kv => forall v, leaves (snd kv) -> interp T (snd kv) = Some v -> kept v /\ carried T v) l ->
  Forall (fun kv => chars (fst kv) /\ leaves (snd kv)) l -> vals (map (fun kv => (unq 0 (fst kv), interp T (snd kv))) l) = Some m -> fine m.
Proof.
  intros IH L E. apply vals_some in E. rewrite forall2_map in E. rewrite Forall_forall in *. eapply forall2_left; [exact E|]. cbn [fst snd].
  intros kv [k v] [X Y] I. cbn [fst snd] in *. destruct (L _ I) as [C V]. split; [subst; apply unq_wf, C|]. apply (IH _ I _ V Y).
Qed.
Theorem interp_kept j : forall v, leaves j -> interp T j = Some v -> kept v /\ carried T v.
Proof.
  induction j as [|b|l|s|l IH|l IH] using json_rect'; intros v L H; inversion L as [| | | |? Q|? Q]; subst; cbn [interp] in H.
  - injection H as <-. split; constructor.
  - injection H as <-. split; constructor.
  - destruct (f_num T l) as [f|] eqn:E; [|discriminate]. injection H as <-. apply (so_num T of_int S) in E as [l' E]. split; [constructor|econstructor; exact E].
  - injection H as <-. split; constructor. apply unq_wf. assumption.
  - destruct (all (map (interp T) l)) as [vs|] eqn:E; [|discriminate]. injection H as <-. apply all_some in E. rewrite forall2_map in E. rewrite Forall_forall in IH, Q.
    split; constructor; (eapply forall2_left; [exact E|]); intros a b X I; apply (IH a I b (Q a I) X).
  - destruct (vals _) as [m|] eqn:E in H; [|discriminate]. injection H as <-. apply (entries_fine l m IH Q) in E.
    assert (Q' := mputs_all _ m E [] (Forall_nil _)). fold (msort m) in Q'. clear E. rename Q' into E. split; constructor.
    + apply msort_inc.
    + eapply Forall_impl; [|exact E]. cbv beta. tauto.
    + eapply Forall_impl; [|exact E]. cbv beta. tauto.
Qed.

(* ----- session files ----- *)
Lemma time_chars t x : t_text T t = Some x -> chars x /\ utf8_wf x.
Proof.
  intros H. apply (so_text T of_int S) in H as [_ H]. split.
  - induction H as [|b x (B & Q & R) Fx IH]; constructor; auto. unfold between in B. lia.
  - apply ascii_wf. eapply Forall_impl; [|exact H]. cbv beta. unfold between. lia.
Qed.
Lemma name_ok b : In b [x63; x6c; x69; x6b] -> chars (name b) /\ utf8_wf (name b) /\ unq 0 (name b) = name b.
Proof.
  intros I. assert (C : chars (name b)).
  { repeat destruct I as [<-|I]; [..|destruct I]; (apply Ch_plain; [vm_compute; discriminate|vm_compute; discriminate|vm_compute; discriminate|exact Ch_nil]). }
  split; [exact C|]. split; [|repeat destruct I as [<-|I]; [..|destruct I]; reflexivity]. apply ascii_wf. constructor; [|constructor].
  repeat destruct I as [<-|I]; [..|destruct I]; vm_compute; reflexivity.
Qed.
Lemma into_info_tree i j : tree T (GMap i) = Some j -> into_info T j None = Some (become_info of_int i).
Proof.
  destruct i as [l|]; cbn [tree]; [|intros H; injection H as <-; reflexivity]. destruct (vals _) as [js|] eqn:E; [|discriminate]. intros H. injection H as <-.
  cbn [into_info become_info become]. rewrite (entries_interp l js E); [reflexivity|]. apply Forall_forall. intros kv _ j. apply interp_tree.
Qed.
Definition good_info (i : option (list (bytes * gval F))) : Prop := match i with None => True | Some m => increasing m /\ fine m end.
Lemma good_become i : good_info i -> become_info of_int i = i.
Proof.
  destruct i as [m|]; [|reflexivity]. intros [I G]. unfold become_info. rewrite (kept_become (GMap (Some m))); [reflexivity|]. constructor; [exact I|].
  eapply Forall_impl; [|exact G]. cbv beta. tauto.
Qed.
Lemma good_tree i : good_info i -> exists j, tree T (GMap i) = Some j.
Proof. destruct i as [m|]; [|cbn; eauto]. intros [I G]. apply tree_iff. constructor. eapply Forall_impl; [|exact G]. cbv beta. tauto. Qed.
Lemma into_info_good j i i' : leaves j -> good_info i -> into_info T j i = Some i' -> good_info i'.
Proof.
  intros L G. destruct j as [| | | | |l]; try discriminate; cbn [into_info]; [intros H; injection H as <-; exact Logic.I|].
  destruct (vals _) as [m|] eqn:E; [|discriminate]. intros H. injection H as <-. inversion L as [| | | | |? Q]; subst.
  assert (Fm : fine m) by (apply (entries_fine l m); [apply Forall_forall; intros kv _ v; apply interp_kept|exact Q|exact E]).
  destruct i as [old|]; [destruct G as [G1 G2]; split; [apply mputs_inc, G1|apply mputs_all; [exact Fm|exact G2]]|].
  split; [apply mputs_inc, In_nil|apply mputs_all; [exact Fm|apply Forall_nil]].
Qed.
Definition good_file (f : sfile (info (F := F))) : Prop := (exists x, t_text T (sf_creation f) = Some x) /\ (exists x, t_text T (sf_lookup f) = Some x) /\ good_info (sf_info f).
Lemma into_time_good j t t' : (exists x, t_text T t = Some x) -> into_time T j t = Some t' -> exists x, t_text T t' = Some x.
Proof. intros G. destruct j; try discriminate; cbn [into_time]; [intros H; injection H as <-; exact G|]. apply (so_time T of_int S). Qed.
Lemma member_good f kv f' : good_file f -> chars (fst kv) /\ leaves (snd kv) -> member T f kv = Some f' -> good_file f'.
Proof.
  intros (G1 & G2 & G3) [C L]. unfold member. destruct (names x63 _).
  - destruct (into_time _ _ _) as [t|] eqn:E; [|discriminate]. intros H. injection H as <-. unfold good_file; cbn [sf_creation sf_lookup sf_info]. split; [refine (into_time_good _ _ _ _ E); assumption|split; assumption].
  - destruct (names x6c _).
    + destruct (into_time _ _ _) as [t|] eqn:E; [|discriminate]. intros H. injection H as <-. unfold good_file; cbn [sf_creation sf_lookup sf_info]. split; [assumption|]. split; [refine (into_time_good _ _ _ _ E); assumption|assumption].
    + destruct (names x69 _); [|intros H; injection H as <-; repeat split; assumption]. destruct (into_info _ _ _) as [i|] eqn:E; [|discriminate]. intros H. injection H as <-. unfold good_file; cbn [sf_creation sf_lookup sf_info].
      split; [assumption|]. split; [assumption|]. exact (into_info_good _ _ _ L G3 E).
Qed.
Lemma members_good l : forall f f', good_file f -> Forall (fun kv => chars (fst kv) /\ leaves (snd kv)) l -> members T f l = Some f' -> good_file f'.
Proof.
  induction l as [|kv l IH]; intros f f' G Q H; cbn [members] in H; [injection H as <-; exact G|]. inversion Q as [|? ? Q1 Q2]; subst.
  destruct (member T f kv) as [f1|] eqn:E; [|discriminate]. eapply IH; [|exact Q2|exact H]. eapply member_good; eassumption.
Qed.
Lemma zero_good : good_file (MkSfile zero_time zero_time None).
Proof. assert (in_years zero_time) by (unfold in_years, zero_time; lia). split; [apply (so_years T of_int S); assumption|]. split; [apply (so_years T of_int S); assumption|constructor]. Qed.
Lemma value_leaves : (forall j t, value j t -> leaves j) /\ (forall l t, elements l t -> Forall leaves l) /\
  (forall l t, entries l t -> Forall (fun kv => chars (fst kv) /\ leaves (snd kv)) l).
Proof. apply json_m; intros; repeat constructor; auto. Qed.
Lemma parse_leaves b j : parse b = Some j -> leaves j.
Proof. intros H. apply parse_spec in H as (w1 & t & w2 & _ & _ & V & _). eapply value_leaves, V. Qed.
Lemma unmarshal_good b f : unmarshal_file T b = Some f -> good_file f.
Proof.
  unfold unmarshal_file. destruct (parse b) as [j|] eqn:P; [|discriminate]. apply parse_leaves in P. destruct j as [| | | | |l]; try discriminate.
  - intros H. injection H as <-. apply zero_good.
  - intros H. inversion P; subst. eapply members_good; [apply zero_good|eassumption|exact H].
Qed.
Lemma file_text f b : marshal_file T f = Some b -> exists c l i j, t_text T (sf_creation f) = Some c /\ t_text T (sf_lookup f) = Some l /\ tree T (GMap (sf_info f)) = Some i /\
  j = JObj [(name x63, JStr c); (name x6c, JStr l); (name x69, i)] /\ b = print j /\ leaves j /\ wf_leaves j.
Proof.
  unfold marshal_file. destruct (t_text T (sf_creation f)) as [c|] eqn:C; [|discriminate]. destruct (t_text T (sf_lookup f)) as [l|] eqn:L; [|discriminate].
  destruct (tree T (GMap (sf_info f))) as [i|] eqn:I; [|discriminate]. intros H. assert (E : b = print (JObj [(name x63, JStr c); (name x6c, JStr l); (name x69, i)])) by congruence.
  exists c, l, i. eexists. split; [reflexivity|]. split; [reflexivity|]. split; [reflexivity|]. split; [reflexivity|]. split; [exact E|].
  apply time_chars in C as [C1 C2]. apply time_chars in L as [L1 L2]. apply tree_leaves in I as [I1 I2].
  split; constructor; repeat (constructor; [split; [apply name_ok; cbn; auto 8|try constructor; assumption]|]); constructor.
Qed.
Lemma name_unq b : In b [x63; x6c; x69; x6b] -> unq 0 (name b) = name b.
Proof. intros H. apply name_ok, H. Qed.
Lemma member_c f c t : t_time T c = Some t -> member T f (name x63, JStr c) = Some (MkSfile t (sf_lookup f) (sf_info f)).
Proof. intros H. unfold member. cbn [fst snd]. rewrite name_unq by (cbn; auto). change (names x63 (name x63)) with true. cbv iota. cbn [into_time]. rewrite H. reflexivity. Qed.
Lemma member_l f c t : t_time T c = Some t -> member T f (name x6c, JStr c) = Some (MkSfile (sf_creation f) t (sf_info f)).
Proof.
  intros H. unfold member. cbn [fst snd]. rewrite name_unq by (cbn; auto). change (names x63 (name x6c)) with false. change (names x6c (name x6c)) with true. cbv iota.
  cbn [into_time]. rewrite H. reflexivity.
Qed.
Lemma member_i f j i : into_info T j (sf_info f) = Some i -> member T f (name x69, j) = Some (MkSfile (sf_creation f) (sf_lookup f) i).
Proof.
  intros H. unfold member. cbn [fst snd]. rewrite name_unq by (cbn; auto). change (names x63 (name x69)) with false. change (names x6c (name x69)) with false.
  change (names x69 (name x69)) with true. cbv iota. rewrite H. reflexivity.
Qed.
Lemma member_s b s j l : In b [x63; x6c; x69] -> session_members T s ((name b, j) :: l) = match member T (en_file s) (name b, j) with Some f => session_members T (MkEncoded (en_key s) f) l | None => None end.
Proof.
  intros H. cbn [session_members]. cbn [fst]. rewrite name_unq by (cbn in *; tauto). replace (names x6b (name b)) with false; [reflexivity|].
  repeat destruct H as [<-|H]; [..|destruct H]; reflexivity.
Qed.
Theorem files_faithful : faithful (json_files T) (become_info of_int).
Proof.
  constructor; cbn [marshal unmarshal json_files].
  - intros f b H. apply file_text in H as (c & l & i & j & C & L & I & -> & -> & V & _). unfold unmarshal_file. rewrite parse_print by exact V.
    cbn [members]. rewrite (member_c _ _ _ (proj1 (so_text T of_int S _ _ C))). cbn [sf_creation sf_lookup sf_info].
    rewrite (member_l _ _ _ (proj1 (so_text T of_int S _ _ L))). cbn [sf_creation sf_lookup sf_info].
    rewrite (member_i _ i (become_info of_int (sf_info f))) by exact (into_info_tree _ _ I). reflexivity.
  - intros b f t H Y. apply unmarshal_good in H as ([x1 X1] & _ & G). destruct (so_years T of_int S t Y) as [x2 X2]. destruct (good_tree _ G) as [j J].
    unfold marshal_file. cbn [sf_creation sf_lookup sf_info]. rewrite X1, X2, J. eauto.
  - intros b f H. apply unmarshal_good in H as (_ & _ & G). apply good_become, G.
  - intros f b b1 b2 H E N. apply file_text in H as (c & l & i & j & _ & _ & _ & -> & -> & V & _). unfold unmarshal_file.
    rewrite (cut_obj (JObj [(name x63, JStr c); (name x6c, JStr l); (name x69, i)])
      (join (map (fun kv => quoted (fst kv) ++ x3a :: print (snd kv)) [(name x63, JStr c); (name x6c, JStr l); (name x69, i)]) ++ [x7d]) b1 b2); [reflexivity| |exact E|exact N].
    exact (print_value _ V).
Qed.
Theorem marshal_file_iff f : (exists b, marshal_file T f = Some b) <->
  (exists x, t_text T (sf_creation f) = Some x) /\ (exists x, t_text T (sf_lookup f) = Some x) /\ carried T (GMap (sf_info f)).
Proof.
  split.
  - intros [b H]. apply file_text in H as (c & l & i & j & C & L & I & _). split; [eauto|]. split; [eauto|]. apply tree_iff. eauto.
  - intros ([c C] & [l L] & G). apply tree_iff in G as [i I]. unfold marshal_file. rewrite C, L, I. eauto.
Qed.
Theorem marshal_file_value f b : marshal_file T f = Some b -> utf8_wf b.
Proof. intros H. apply file_text in H as (c & l & i & j & _ & _ & _ & _ & -> & _ & W). apply print_wf, W. Qed.

(* ----- sessions ----- *)
Lemma session_text s b : marshal_session T s = Some b -> exists c l i j, t_text T (sf_creation (en_file s)) = Some c /\ t_text T (sf_lookup (en_file s)) = Some l /\
  (match sf_info (en_file s) with None | Some [] => i = [] | Some m => exists t, tree T (GMap (Some m)) = Some t /\ i = [(name x69, t)] end) /\
  j = JObj ((name x6b, JStr (esc 0 (en_key s))) :: (name x63, JStr c) :: (name x6c, JStr l) :: i) /\ b = print j /\ leaves j /\ wf_leaves j.
Proof.
  unfold marshal_session. destruct (t_text T (sf_creation (en_file s))) as [c|] eqn:C; [|discriminate]. destruct (t_text T (sf_lookup (en_file s))) as [l|] eqn:L; [|discriminate].
  apply time_chars in C as C'. apply time_chars in L as L'. destruct C' as [C1 C2], L' as [L1 L2].
  pose proof (esc_chars (en_key s)) as K1. pose proof (esc_wf (en_key s)) as K2.
  destruct (sf_info (en_file s)) as [[|kv m]|] eqn:I.
  - intros H. injection H as <-. exists c, l, []. eexists. do 3 (split; [reflexivity|]). split; [reflexivity|]. split; [reflexivity|].
    split; constructor; repeat (constructor; [split; [apply name_ok; cbn; auto 8|try constructor; assumption]|]); constructor.
  - remember (kv :: m) as m' eqn:Em. destruct (tree T (GMap (Some m'))) as [t|] eqn:X; [|discriminate].
    intros H. assert (E : b = print (JObj ((name x6b, JStr (esc 0 (en_key s))) :: (name x63, JStr c) :: (name x6c, JStr l) :: [(name x69, t)]))) by (cbn [option_map] in H; congruence).
    apply tree_leaves in X as X'. destruct X' as [X1 X2]. exists c, l, [(name x69, t)]. eexists. split; [reflexivity|]. split; [reflexivity|]. split; [rewrite Em in *; eauto|]. split; [reflexivity|]. split; [exact E|].
    split; constructor; repeat (constructor; [split; [apply name_ok; cbn; auto 8|try constructor; assumption]|]); constructor.
  - intros H. injection H as <-. exists c, l, []. eexists. do 3 (split; [reflexivity|]). split; [reflexivity|]. split; [reflexivity|].
    split; constructor; repeat (constructor; [split; [apply name_ok; cbn; auto 8|try constructor; assumption]|]); constructor.
Qed.
Theorem told s b : marshal_session T s = Some b ->
  unmarshal_session T b = Some (MkEncoded (coerce 0 (en_key s))
    (MkSfile (sf_creation (en_file s)) (sf_lookup (en_file s)) (told_info of_int (sf_info (en_file s))))) /\ utf8_wf b.
Proof.
  intros H. apply session_text in H as (c & l & i & j & C & L & I & -> & -> & V & W). split; [|apply print_wf, W]. unfold unmarshal_session. rewrite parse_print by exact V.
  change (session_members T ?s0 ((name x6b, ?j0) :: ?l0)) with (if names x6b (unq 0 (name x6b)) then match into_string j0 (en_key s0) with Some k => session_members T (MkEncoded k (en_file s0)) l0 | None => None end
    else match member T (en_file s0) (name x6b, j0) with Some f => session_members T (MkEncoded (en_key s0) f) l0 | None => None end).
  rewrite name_unq by (cbn; auto). change (names x6b (name x6b)) with true. cbv iota. cbn [into_string]. rewrite esc_unq. cbn [en_key en_file].
  rewrite member_s by (cbn; auto). cbn [en_key en_file]. rewrite (member_c _ _ _ (proj1 (so_text T of_int S _ _ C))). cbn [sf_creation sf_lookup sf_info].
  rewrite member_s by (cbn; auto). cbn [en_key en_file]. rewrite (member_l _ _ _ (proj1 (so_text T of_int S _ _ L))). cbn [sf_creation sf_lookup sf_info].
  destruct (sf_info (en_file s)) as [[|kv m]|]; [subst i; reflexivity| |subst i; reflexivity].
  destruct I as (t & X & ->). rewrite member_s by (cbn; auto). cbn [en_key en_file]. rewrite (member_i _ t (become_info of_int (Some (kv :: m)))) by exact (into_info_tree _ _ X). reflexivity.
Qed.
Theorem marshal_session_iff s : (exists b, marshal_session T s = Some b) <->
  (exists x, t_text T (sf_creation (en_file s)) = Some x) /\ (exists x, t_text T (sf_lookup (en_file s)) = Some x) /\ carried T (GMap (sf_info (en_file s))).
Proof.
  split.
  - intros [b H]. apply session_text in H as (c & l & i & j & C & L & I & _). split; [eauto|]. split; [eauto|].
    destruct (sf_info (en_file s)) as [[|kv m]|]; [constructor; constructor| |constructor]. destruct I as (t & X & _). apply tree_iff. eauto.
  - intros ([c C] & [l L] & G). apply tree_iff in G as [t X]. unfold marshal_session. rewrite C, L. destruct (sf_info (en_file s)) as [[|kv m]|]; [eauto| |eauto].
    rewrite X. cbn [option_map]. eauto.
Qed.
End Values.
