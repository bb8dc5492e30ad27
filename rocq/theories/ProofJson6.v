(* Proofs about JSON: exactly what is written, exactly what is read. *)
From Coq Require Import List Arith NArith ZArith Lia Bool.
From Coq Require Import ZifyBool ZifyNat ZifyN.
From Verif Require Import BaseBytes SpecText ModelMessage ModelPayload ProofText ModelKey SpecKey ProofKey ModelFiles SpecFiles ModelJson SpecJson ProofJson ProofJson2 ProofJson3 ProofJson4 ProofJson5.
Import ListNotations.
Open Scope nat_scope.

(* ----- strings ----- *)
Ltac hexd := split; [apply hexval_spec; vm_compute; reflexivity|unfold between; vm_compute; intros [? ?]; congruence].
Lemma out_quoted b s q : (b2N b < 128)%N -> quoted_as s q -> quoted_as (b :: s) (out b ++ q).
Proof.
  intros H C. destruct b; try (exfalso; vm_compute in H; discriminate H);
    first [ apply Q_plain; [unfold between; vm_compute; split; discriminate|vm_compute; intuition discriminate|exact C]
          | apply Q_esc; [vm_compute; tauto|exact C]
          | eapply Q_hex; [first [left; split; [vm_compute; reflexivity|vm_compute; intuition discriminate]|right; vm_compute; tauto]|hexd|hexd|vm_compute; reflexivity|exact C]].
Qed.
Theorem esc_quoted s : quoted_as s (esc 0 s).
Proof.
  induction s as [|b s B IHs|c s U L IHs|b s B R IHs] using by_chars; [constructor|..].
  - rewrite esc_ascii by assumption. apply out_quoted; assumption.
  - rewrite esc_multi by assumption. unfold esc_char. destruct (bytes_eqb_spec c [xe2; x80; xa8]) as [->|N1]; [exact (Q_2028 _ _ IHs)|].
    destruct (bytes_eqb_spec c [xe2; x80; xa9]) as [->|N2]; [exact (Q_2029 _ _ IHs)|]. apply Q_char; assumption.
  - rewrite esc_nochar by assumption. apply (Q_bad b s); [apply rune_none; assumption|assumption].
Qed.
Theorem quoted_esc s q : quoted_as s q -> q = esc 0 s.
Proof.
  induction 1 as [|b s q B N H IH|b c s q I H IH|b x y h l s q B X Y E H IH|c s q U L N1 N2 H IH|s q H IH|s q H IH|b s q N H IH]; subst.
  - reflexivity.
  - unfold between in B. rewrite esc_ascii by lia. clear -B N. destruct b; try reflexivity; exfalso; vm_compute in B, N; intuition congruence.
  - cbn [In] in I. repeat destruct I as [I|I]; try contradiction; injection I as I1 I2; apply (f_equal n2b) in I1, I2; rewrite n2b_b2N in I1, I2; subst; reflexivity.
  - assert (L : (b2N b < 128)%N) by (clear -B; destruct B as [[B _]|B]; [lia|cbn in B; lia]). rewrite esc_ascii by exact L.
    assert (HX : h = (b2N b / 16)%N) by (destruct Y as [Y _]; apply hexval_lt in Y; rewrite E; rewrite N.mul_comm, N.div_add_l by lia; rewrite (N.div_small l) by lia; lia).
    assert (HY : l = (b2N b mod 16)%N) by (destruct Y as [Y _]; apply hexval_lt in Y; rewrite E; rewrite N.add_comm, N.mul_comm, N.mod_add by lia; rewrite N.mod_small by lia; reflexivity).
    assert (HEX : forall n z, hexdigit n z -> z = hex n).
    { clear. intros n z [V N]. pose proof (hexval_lt _ _ V). apply b2N_inj. unfold hex. rewrite b2N_n2b_small by (destruct (n <? 10)%N eqn:?; lia).
      destruct V as [[D ->]|[[D ->]|[D ->]]]; unfold is_digit, between in *; [destruct (N.ltb_spec (b2N z - 48) 10); lia|destruct (N.ltb_spec (b2N z - 97 + 10) 10); lia|contradiction]. }
    apply HEX in X, Y. subst x y. clear HEX. subst h l. clear -B L. change (u_esc (n2b 48) (n2b 48) (hex (b2N b / 16)) (hex (b2N b mod 16)) ++ esc 0 s = out b ++ esc 0 s).
    destruct b; try reflexivity; exfalso; vm_compute in B; intuition congruence.
  - rewrite esc_multi by assumption. unfold esc_char. destruct (bytes_eqb_spec c [xe2; x80; xa8]) as [->|_]; [exfalso; apply N1; reflexivity|].
    destruct (bytes_eqb_spec c [xe2; x80; xa9]) as [->|_]; [exfalso; apply N2; reflexivity|]. reflexivity.
  - reflexivity.
  - reflexivity.
  - apply no_char_bad in N as [X R]. rewrite esc_nochar by assumption. reflexivity.
Qed.
Theorem esc_spec s q : quoted_as s q <-> q = esc 0 s.
Proof. split; [apply quoted_esc|intros ->; apply esc_quoted]. Qed.

(* ----- what is written ----- *)
Lemma commas_join l : commas l = join l.
Proof. induction l as [|x [|y l] IH]; [reflexivity|reflexivity|]. cbn [commas join] in *. rewrite IH. reflexivity. Qed.
Section Texts.
Context {F : Type} (T : texts F) (of_int : Z -> F) (S : sound T of_int).
Theorem tree_wrote (v : gval F) : forall j, tree T v = Some j -> wrote T v (print j).
Proof.
  induction v as [|b|z|f|s| |l IH| |l IH|] using gval_rect'; cbn [tree]; intros j H.
  - injection H as <-. apply W_nil.
  - injection H as <-. destruct b; [apply W_true|apply W_false].
  - destruct (is_int z) eqn:E; [|discriminate]. injection H as <-. apply W_int; [apply is_int_spec, E|apply dec_spells, E].
  - destruct (f_lit T f) as [lit|] eqn:E; [|discriminate]. injection H as <-. apply W_float, E.
  - injection H as <-. apply W_str, esc_quoted.
  - injection H as <-. apply W_slice0.
  - destruct (all (map (tree T) l)) as [js|] eqn:E; [|discriminate]. injection H as <-. apply all_some in E. rewrite forall2_map in E. cbn [print]. rewrite <- commas_join. apply (W_slice T).
    induction E as [|v j l js X E IHE]; [constructor|]. inversion IH; subst. cbn [map]. constructor; auto.
  - injection H as <-. apply W_map0.
  - destruct (vals _) as [js|] eqn:E in H; [|discriminate]. injection H as <-. apply vals_some in E. rewrite forall2_map in E. cbn [print]. rewrite <- commas_join, map_map. cbn [fst snd].
    apply (W_map T l (msort l)); [apply map_of_msort; reflexivity|].
    assert (Q : Forall2 (fun x y => fst x = fst y /\ wrote T (snd x) (print (snd y))) l js).
    { clear -E IH. induction E as [|[k v] [k' j] l js [A B] E IHE]; [constructor|]. inversion IH as [|? ? X Y]; subst. constructor; [|apply IHE, Y]. cbn [fst snd] in *. auto. }
    apply (msort_rel (fun v j => wrote T v (print j))) in Q. clear E IH. revert Q. generalize (msort js) as a. generalize (msort l) as b. intros b a Q.
    induction Q as [|[k v] [k' j] a b [X Y] Q IHQ]; cbn [map]; constructor; [|exact IHQ]. cbn [fst snd] in *. subst k'. exists (esc 0 k), (print j). split; [apply esc_quoted|]. auto.
  - discriminate.
Qed.
Theorem file_wrote f b : marshal_file T f = Some b -> exists c l i,
  t_text T (sf_creation f) = Some c /\ t_text T (sf_lookup f) = Some l /\ wrote T (GMap (sf_info f)) i /\
  b = n2b 123 :: commas [field 99 (in_quotes c); field 108 (in_quotes l); field 105 i] ++ [n2b 125].
Proof.
  intros H. apply (file_text T of_int S) in H as (c & l & i & j & C & L & I & -> & -> & _). exists c, l, (print i). split; [exact C|]. split; [exact L|]. split; [apply tree_wrote, I|]. reflexivity.
Qed.
Theorem session_wrote s b : marshal_session T s = Some b -> exists k c l,
  quoted_as (en_key s) k /\ t_text T (sf_creation (en_file s)) = Some c /\ t_text T (sf_lookup (en_file s)) = Some l /\
  match sf_info (en_file s) with
  | None | Some [] => b = n2b 123 :: commas [field 107 (in_quotes k); field 99 (in_quotes c); field 108 (in_quotes l)] ++ [n2b 125]
  | i => exists t, wrote T (GMap i) t /\ b = n2b 123 :: commas [field 107 (in_quotes k); field 99 (in_quotes c); field 108 (in_quotes l); field 105 t] ++ [n2b 125]
  end.
Proof.
  intros H. apply (session_text T of_int S) in H as (c & l & i & j & C & L & I & -> & -> & _). exists (esc 0 (en_key s)), c, l. split; [apply esc_quoted|]. split; [exact C|]. split; [exact L|].
  destruct (sf_info (en_file s)) as [[|kv m]|]; [subst i; reflexivity| |subst i; reflexivity]. destruct I as (t & X & ->). exists (print t). split; [apply tree_wrote, X|reflexivity].
Qed.

(* ----- what is read ----- *)
Lemma entries_reads (l : list (bytes * json)) m : Forall (fun kv => forall v, leaves (snd kv) -> (interp T (snd kv) = Some v <-> reads T (snd kv) v)) l ->
  Forall (fun kv => chars (fst kv) /\ leaves (snd kv)) l ->
  (vals (map (fun kv => (unq 0 (fst kv), interp T (snd kv))) l) = Some m <-> Forall2 (fun x y => denotes (fst x) (fst y) /\ reads T (snd x) (snd y)) l m).
Proof.
  intros IH L. rewrite vals_some, forall2_map. cbn [fst snd]. split; intros X0.
  - induction X0 as [|[k j] [k' v] l m [X Y] X0 IHH]; [constructor|]. inversion IH as [|? ? IH1 IH2]; inversion L as [|? ? [C V] L2]; subst. constructor; [|auto]. cbn [fst snd] in *. subst k'.
    split; [apply unq_denotes, C|]. apply (IH1 v V), Y.
  - induction X0 as [|[k j] [k' v] l m [X Y] X0 IHH]; [constructor|]. inversion IH as [|? ? IH1 IH2]; inversion L as [|? ? [C V] L2]; subst. constructor; [|auto]. cbn [fst snd] in *.
    split; [symmetry; apply denotes_unq, X|]. apply (IH1 v V), Y.
Qed.
Theorem interp_reads j : forall v, leaves j -> (interp T j = Some v <-> reads T j v).
Proof.
  induction j as [|b|l|s|l IH|l IH] using json_rect'; intros v L; inversion L as [| | | |? Q|? Q]; subst; cbn [interp].
  - split; [intros H; injection H as <-; constructor|intros H; inversion H; reflexivity].
  - split; [intros H; injection H as <-; constructor|intros H; inversion H; reflexivity].
  - split; [destruct (f_num T l) eqn:E; [|discriminate]; intros R; injection R as <-; constructor; exact E|intros R; inversion R as [| |? ? E| | |]; subst; rewrite E; reflexivity].
  - split; [intros R; injection R as <-; constructor; apply unq_denotes; assumption|intros R; inversion R as [| | |? ? D| |]; subst; rewrite (denotes_unq _ _ D); reflexivity].
  - split.
    + destruct (all (map (interp T) l)) as [vs|] eqn:E; [|discriminate]. intros H. injection H as <-. constructor. apply all_some in E. rewrite forall2_map in E. clear L.
      induction E as [|j v l vs X E IHE]; [constructor|]. inversion IH; inversion Q; subst. constructor; [apply H1; assumption|auto].
    + intros H. inversion H as [| | | |? vs R|]; subst. assert (all (map (interp T) l) = Some vs) as ->; [|reflexivity]. apply all_some. rewrite forall2_map. clear L H.
      induction R as [|j v l vs X R IHR]; [constructor|]. inversion IH; inversion Q; subst. constructor; [apply H1; assumption|auto].
  - split.
    + destruct (vals _) as [m|] eqn:E; [|discriminate]. intros H. injection H as <-. apply (entries_reads l m IH Q) in E. econstructor; [exact E|]. apply map_of_msort. reflexivity.
    + intros H. inversion H as [| | | | |? es m R M]; subst. apply (entries_reads l es IH Q) in R. rewrite R. apply map_of_msort in M. subst. reflexivity.
Qed.
Lemma into_time_spec j js t t' : times T t (j :: js) t' <-> exists t1, into_time T j t = Some t1 /\ times T t1 js t'.
Proof.
  split.
  - intros H. inversion H; subst; cbn [into_time]; eauto.
  - intros (t1 & E & H). destruct j; try discriminate; cbn [into_time] in E; [injection E as <-; constructor; exact H|econstructor; eassumption].
Qed.
Lemma into_string_spec j js s s' : leaves j -> (strings s (j :: js) s' <-> exists s1, into_string j s = Some s1 /\ strings s1 js s').
Proof.
  intros L. split.
  - intros H. inversion H as [|? ? ? R|? ? ? ? ? D R]; subst; cbn [into_string]; [eauto|]. apply denotes_unq in D. subst. eauto.
  - intros (t1 & E & H). destruct j; try discriminate; cbn [into_string] in E; injection E as <-; [constructor; exact H|]. inversion L; subst. econstructor; [apply unq_denotes; assumption|exact H].
Qed.
Lemma msort_app {V} (a b : list (bytes * V)) : increasing a -> msort (a ++ b) = mputs b a.
Proof. intros I. unfold msort, mputs. rewrite fold_left_app. fold (mputs a (@nil (bytes * V))). fold (msort a). rewrite (msort_id a I). reflexivity. Qed.
Lemma into_info_spec j js i i' : leaves j -> good_info T i -> (infos T i (j :: js) i' <-> exists i1, into_info T j i = Some i1 /\ infos T i1 js i').
Proof.
  intros L G. assert (I : increasing (entries_of i)) by (destruct i; [apply G|constructor]). split.
  - intros H. inversion H as [|? ? ? R|? l es m ? ? E M R]; subst; cbn [into_info]; [eauto|]. inversion L as [| | | | |? Q]; subst.
    apply entries_reads in E; [|apply Forall_forall; intros kv _ v; apply interp_reads|exact Q]. rewrite E. apply map_of_msort in M. rewrite msort_app in M by exact I. subst m. eauto.
  - intros (i1 & E & H). destruct j as [| | | | |l]; try discriminate; cbn [into_info] in E; [injection E as <-; constructor; exact H|]. inversion L as [| | | | |? Q]; subst.
    destruct (vals _) as [m|] eqn:V; [|discriminate]. injection E as <-. apply entries_reads in V; [|apply Forall_forall; intros kv _ v; apply interp_reads|exact Q].
    eapply I_obj; [exact V| |exact H]. apply map_of_msort. rewrite msort_app by exact I. reflexivity.
Qed.
Lemma names_in b ns key : (forall k, In k ns <-> names b k = true) -> names b key = true <-> In key ns.
Proof. intros H. symmetry. apply H. Qed.
Lemma names_c_spec k : In k names_c <-> names x63 k = true.
Proof. unfold names_c, names. cbn [In]. change (beq x63 x6b) with false. cbn [andb]. rewrite orb_false_r, orb_true_iff. destruct (bytes_eqb_spec k [x63]), (bytes_eqb_spec k [n2b (b2N x63 - 32)]); intuition. Qed.
Lemma names_l_spec k : In k names_l <-> names x6c k = true.
Proof. unfold names_l, names. cbn [In]. change (beq x6c x6b) with false. cbn [andb]. rewrite orb_false_r, orb_true_iff. destruct (bytes_eqb_spec k [x6c]), (bytes_eqb_spec k [n2b (b2N x6c - 32)]); intuition. Qed.
Lemma names_i_spec k : In k names_i <-> names x69 k = true.
Proof. unfold names_i, names. cbn [In]. change (beq x69 x6b) with false. cbn [andb]. rewrite orb_false_r, orb_true_iff. destruct (bytes_eqb_spec k [x69]), (bytes_eqb_spec k [n2b (b2N x69 - 32)]); intuition. Qed.
Lemma names_k_spec k : In k names_k <-> names x6b k = true.
Proof.
  unfold names_k, names. cbn [In]. change (beq x6b x6b) with true. cbn [andb]. rewrite !orb_true_iff. change (utf8_of 8490) with [xe2; x84; xaa].
  destruct (bytes_eqb_spec k [x6b]), (bytes_eqb_spec k [n2b (b2N x6b - 32)]), (bytes_eqb_spec k [xe2; x84; xaa]); intuition.
Qed.
Lemma picks_cons b ns raw j l vs : chars raw -> (forall k, In k ns <-> names b k = true) ->
  (picks ns ((raw, j) :: l) vs <-> if names b (unq 0 raw) then exists vs', vs = j :: vs' /\ picks ns l vs' else picks ns l vs).
Proof.
  intros C H. pose proof (unq_denotes _ C) as D. destruct (names b (unq 0 raw)) eqn:E.
  - apply H in E. split; [|intros (vs' & -> & P); econstructor; eassumption]. intros P. inversion P as [|? n ? ? ? Dn I Q|? n ? ? ? Dn I Q]; subst; [eauto|].
    apply denotes_unq in Dn. subst. contradiction.
  - split; [|intros P; eapply P_no; [exact D| |exact P]; intros I; apply H in I; congruence].
    intros P. inversion P as [|? n ? ? ? Dn I Q|? n ? ? ? Dn I Q]; subst; [|exact Q]. apply denotes_unq in Dn. subst. apply H in I. congruence.
Qed.
(* no name names two fields *)
Lemma names_one key : (names x63 key = true -> names x6c key = false /\ names x69 key = false /\ names x6b key = false) /\
  (names x6c key = true -> names x69 key = false /\ names x6b key = false) /\ (names x69 key = true -> names x6b key = false).
Proof.
  rewrite <- names_c_spec, <- names_l_spec, <- names_i_spec. split; [|split]; intros H; (repeat destruct H as [<-|H]; [..|destruct H]); repeat split; reflexivity.
Qed.
Lemma members_spec l : forall f0 f vc vl vi, Forall (fun kv => chars (fst kv) /\ leaves (snd kv)) l -> good_file T f0 -> picks names_c l vc -> picks names_l l vl -> picks names_i l vi ->
  (members T f0 l = Some f <-> times T (sf_creation f0) vc (sf_creation f) /\ times T (sf_lookup f0) vl (sf_lookup f) /\ infos T (sf_info f0) vi (sf_info f)).
Proof.
  induction l as [|[raw j] l IH]; intros f0 f vc vl vi L G PC PL PI.
  - inversion PC; inversion PL; inversion PI; subst. cbn [members]. split.
    + intros Z. injection Z as <-. repeat split; constructor.
    + intros (A & B & C). inversion A; inversion B; inversion C. destruct f0, f. cbn in *. congruence.
  - inversion L as [|? ? [C V] L']; subst. cbn [fst snd] in C, V. cbn [members]. unfold member. cbn [fst snd].
    rewrite (picks_cons x63 _ _ _ _ _ C names_c_spec) in PC. rewrite (picks_cons x6c _ _ _ _ _ C names_l_spec) in PL. rewrite (picks_cons x69 _ _ _ _ _ C names_i_spec) in PI.
    destruct (names_one (unq 0 raw)) as (N1 & N2 & _). destruct G as (G1 & G2 & G3).
    destruct (names x63 (unq 0 raw)).
    + destruct (N1 eq_refl) as (E1 & E2 & _). rewrite E1 in PL. rewrite E2 in PI. destruct PC as (vc' & -> & PC). rewrite into_time_spec.
      destruct (into_time T j (sf_creation f0)) as [t|] eqn:E.
      * rewrite (IH (MkSfile t (sf_lookup f0) (sf_info f0)) f vc' vl vi L'); cbn [sf_creation sf_lookup sf_info]; try assumption.
        -- split; [intros (A & B); split; [eauto|exact B]|]. intros ((t1 & X & A) & B). injection X as <-. auto.
        -- split; [|split; assumption]. exact (into_time_good T of_int S _ _ _ G1 E).
      * split; [discriminate|]. intros ((t1 & X & _) & _). discriminate.
    + destruct (names x6c (unq 0 raw)).
      * destruct (N2 eq_refl) as (E1 & _). rewrite E1 in PI. destruct PL as (vl' & -> & PL). rewrite into_time_spec.
        destruct (into_time T j (sf_lookup f0)) as [t|] eqn:E.
        -- rewrite (IH (MkSfile (sf_creation f0) t (sf_info f0)) f vc vl' vi L'); cbn [sf_creation sf_lookup sf_info]; try assumption.
           ++ split; [intros (A & B & D); repeat split; eauto|]. intros (A & (t1 & X & B) & D). injection X as <-. auto.
           ++ split; [assumption|split; [|assumption]]. exact (into_time_good T of_int S _ _ _ G2 E).
        -- split; [discriminate|]. intros (_ & (t1 & X & _) & _). discriminate.
      * destruct (names x69 (unq 0 raw)).
        -- destruct PI as (vi' & -> & PI). rewrite (into_info_spec j vi' _ _ V G3). destruct (into_info T j (sf_info f0)) as [i|] eqn:E.
           ++ rewrite (IH (MkSfile (sf_creation f0) (sf_lookup f0) i) f vc vl vi' L'); cbn [sf_creation sf_lookup sf_info]; try assumption.
              ** split; [intros (A & B & D); repeat split; eauto|]. intros (A & B & (t1 & X & D)). injection X as <-. auto.
              ** split; [assumption|split; [assumption|]]. exact (into_info_good T of_int S _ _ _ V G3 E).
           ++ split; [discriminate|]. intros (_ & _ & (t1 & X & _)). discriminate.
        -- apply (IH f0 f vc vl vi L'); try assumption. split; [assumption|split; assumption].
Qed.
Lemma picks_total b ns l : (forall k, In k ns <-> names b k = true) -> Forall (fun kv => chars (fst kv) /\ leaves (snd kv)) l -> exists vs, picks ns l vs.
Proof.
  intros H. induction 1 as [|[raw j] l [C V] L [vs IH]]; [exists []; constructor|]. cbn [fst] in C. pose proof (picks_cons b ns raw j l) as P.
  destruct (names b (unq 0 raw)) eqn:E; [exists (j :: vs)|exists vs]; apply (P _ C H); [eauto|exact IH].
Qed.
Definition zero_file : sfile (info (F := F)) := MkSfile year_one year_one None.
Theorem file_read b f : unmarshal_file T b = Some f <->
  (text_of JNull b /\ f = MkSfile year_one year_one None) \/
  exists l vc vl vi, text_of (JObj l) b /\ picks names_c l vc /\ picks names_l l vl /\ picks names_i l vi /\
    times T year_one vc (sf_creation f) /\ times T year_one vl (sf_lookup f) /\ infos T None vi (sf_info f).
Proof.
  unfold unmarshal_file. split.
  - destruct (parse b) as [j|] eqn:P; [|discriminate]. pose proof (parse_leaves _ _ P) as L. apply parse_spec in P. destruct j as [| | | | |l]; try discriminate.
    + intros H. injection H as <-. left. auto.
    + intros H. right. inversion L as [| | | | |? Q]; subst. destruct (picks_total x63 names_c l names_c_spec Q) as [vc PC]. destruct (picks_total x6c names_l l names_l_spec Q) as [vl PL].
      destruct (picks_total x69 names_i l names_i_spec Q) as [vi PI]. exists l, vc, vl, vi. split; [exact P|]. split; [exact PC|]. split; [exact PL|]. split; [exact PI|].
      apply (members_spec l _ _ _ _ _ Q (zero_good T of_int S) PC PL PI) in H. exact H.
  - intros [[P ->]|(l & vc & vl & vi & P & PC & PL & PI & H)].
    + apply parse_spec in P. rewrite P. reflexivity.
    + apply parse_spec in P. rewrite P. apply parse_leaves in P. inversion P as [| | | | |? Q]; subst. apply (members_spec l _ _ _ _ _ Q (zero_good T of_int S) PC PL PI). exact H.
Qed.
Lemma session_members_spec l : forall s0 s vk vc vl vi, Forall (fun kv => chars (fst kv) /\ leaves (snd kv)) l -> good_file T (en_file s0) ->
  picks names_k l vk -> picks names_c l vc -> picks names_l l vl -> picks names_i l vi ->
  (session_members T s0 l = Some s <-> strings (en_key s0) vk (en_key s) /\
    times T (sf_creation (en_file s0)) vc (sf_creation (en_file s)) /\ times T (sf_lookup (en_file s0)) vl (sf_lookup (en_file s)) /\ infos T (sf_info (en_file s0)) vi (sf_info (en_file s))).
Proof.
  induction l as [|[raw j] l IH]; intros s0 s vk vc vl vi L G PK PC PL PI.
  - inversion PK; inversion PC; inversion PL; inversion PI; subst. cbn [session_members]. split.
    + intros Z. injection Z as <-. repeat split; constructor.
    + intros (A0 & A & B & C). inversion A0; inversion A; inversion B; inversion C. destruct s0 as [? []], s as [? []]. cbn in *. congruence.
  - pose proof L as L0. inversion L as [|? ? [C V] L']; subst. cbn [fst snd] in C, V. cbn [session_members]. cbn [fst snd].
    rewrite (picks_cons x6b _ _ _ _ _ C names_k_spec) in PK. destruct (names x6b (unq 0 raw)) eqn:NK.
    + destruct PK as (vk' & -> & PK). destruct (names_one (unq 0 raw)) as (N1 & N2 & N3).
      rewrite (picks_cons x63 _ _ _ _ _ C names_c_spec) in PC. rewrite (picks_cons x6c _ _ _ _ _ C names_l_spec) in PL. rewrite (picks_cons x69 _ _ _ _ _ C names_i_spec) in PI.
      destruct (names x63 (unq 0 raw)); [destruct (N1 eq_refl) as (_ & _ & ?); congruence|]. destruct (names x6c (unq 0 raw)); [destruct (N2 eq_refl); congruence|].
      destruct (names x69 (unq 0 raw)); [specialize (N3 eq_refl); congruence|]. rewrite (into_string_spec j vk' _ _ V). destruct (into_string j (en_key s0)) as [k|] eqn:E.
      * rewrite (IH (MkEncoded k (en_file s0)) s vk' vc vl vi L'); cbn [en_key en_file]; try assumption.
        split; [intros (A & B); split; [eauto|exact B]|]. intros ((t1 & X & A) & B). injection X as <-. auto.
      * split; [discriminate|]. intros ((t1 & X & _) & _). discriminate.
    + destruct (member T (en_file s0) (raw, j)) as [f|] eqn:M.
      * pose proof (member_good T of_int S _ (raw, j) _ G (conj C V) M) as Gf.
        rewrite (picks_cons x63 _ _ _ _ _ C names_c_spec) in PC. rewrite (picks_cons x6c _ _ _ _ _ C names_l_spec) in PL. rewrite (picks_cons x69 _ _ _ _ _ C names_i_spec) in PI.
        unfold member in M. cbn [fst snd] in M. destruct (names_one (unq 0 raw)) as (N1 & N2 & _).
        destruct (names x63 (unq 0 raw)).
        -- destruct (N1 eq_refl) as (E1 & E2 & _). rewrite E1 in PL. rewrite E2 in PI. destruct PC as (vc' & -> & PC). rewrite into_time_spec.
           destruct (into_time T j _) as [t|] eqn:E; [|discriminate]. injection M as <-.
           rewrite (IH (MkEncoded (en_key s0) (MkSfile t (sf_lookup (en_file s0)) (sf_info (en_file s0)))) s vk vc' vl vi L'); cbn [en_key en_file sf_creation sf_lookup sf_info]; try assumption.
           split; [intros (A & B & D); split; [exact A|]; split; [eauto|exact D]|]. intros (A & (t1 & X & B) & D). injection X as <-. auto.
        -- destruct (names x6c (unq 0 raw)).
           ++ destruct (N2 eq_refl) as (E1 & _). rewrite E1 in PI. destruct PL as (vl' & -> & PL). rewrite into_time_spec. destruct (into_time T j _) as [t|] eqn:E; [|discriminate]. injection M as <-.
              rewrite (IH (MkEncoded (en_key s0) (MkSfile (sf_creation (en_file s0)) t (sf_info (en_file s0)))) s vk vc vl' vi L'); cbn [en_key en_file sf_creation sf_lookup sf_info]; try assumption.
              split; [intros (A & B & D & Z); repeat split; eauto|]. intros (A & B & (t1 & X & D) & Z). injection X as <-. auto.
           ++ destruct (names x69 (unq 0 raw)).
              ** destruct PI as (vi' & -> & PI). destruct G as (_ & _ & G3). rewrite (into_info_spec j vi' _ _ V G3). destruct (into_info T j _) as [i|] eqn:E; [|discriminate]. injection M as <-.
                 rewrite (IH (MkEncoded (en_key s0) (MkSfile (sf_creation (en_file s0)) (sf_lookup (en_file s0)) i)) s vk vc vl vi' L'); cbn [en_key en_file sf_creation sf_lookup sf_info]; try assumption.
                 split; [intros (A & B & D & Z); repeat split; eauto|]. intros (A & B & D & (t1 & X & Z)). injection X as <-. auto.
              ** injection M as <-. rewrite (IH (MkEncoded (en_key s0) (en_file s0)) s vk vc vl vi L'); cbn [en_key en_file]; try assumption. reflexivity.
      * split; [discriminate|]. intros (_ & A & B & D). exfalso.
        assert (X : exists f', members T (en_file s0) ((raw, j) :: l) = Some f').
        { exists (en_file s). apply (members_spec _ _ _ _ _ _ L0 G PC PL PI). auto. }
        destruct X as [f' X]. cbn [members] in X. rewrite M in X. discriminate.
Qed.
Theorem session_read b s : unmarshal_session T b = Some s <->
  (text_of JNull b /\ s = MkEncoded [] (MkSfile year_one year_one None)) \/
  exists l vk vc vl vi, text_of (JObj l) b /\ picks names_k l vk /\ picks names_c l vc /\ picks names_l l vl /\ picks names_i l vi /\
    strings [] vk (en_key s) /\ times T year_one vc (sf_creation (en_file s)) /\ times T year_one vl (sf_lookup (en_file s)) /\ infos T None vi (sf_info (en_file s)).
Proof.
  unfold unmarshal_session. split.
  - destruct (parse b) as [j|] eqn:P; [|discriminate]. pose proof (parse_leaves _ _ P) as L. apply parse_spec in P. destruct j as [| | | | |l]; try discriminate.
    + intros H. injection H as <-. left. auto.
    + intros H. right. inversion L as [| | | | |? Q]; subst. destruct (picks_total x63 names_c l names_c_spec Q) as [vc PC]. destruct (picks_total x6c names_l l names_l_spec Q) as [vl PL].
      destruct (picks_total x69 names_i l names_i_spec Q) as [vi PI]. destruct (picks_total x6b names_k l names_k_spec Q) as [vk PK]. exists l, vk, vc, vl, vi.
      split; [exact P|]. split; [exact PK|]. split; [exact PC|]. split; [exact PL|]. split; [exact PI|].
      apply (session_members_spec l (MkEncoded [] (MkSfile zero_time zero_time None)) s _ _ _ _ Q (zero_good T of_int S) PK PC PL PI) in H. exact H.
  - intros [[P ->]|(l & vk & vc & vl & vi & P & PK & PC & PL & PI & H)].
    + apply parse_spec in P. rewrite P. reflexivity.
    + apply parse_spec in P. rewrite P. apply parse_leaves in P. inversion P as [| | | | |? Q]; subst.
      apply (session_members_spec l (MkEncoded [] (MkSfile zero_time zero_time None)) s _ _ _ _ Q (zero_good T of_int S) PK PC PL PI). exact H.
Qed.
End Texts.
Section Consequences.
Context {F : Type} (T : texts F) (of_int : Z -> F) (S : sound T of_int).
Theorem same_info f b m : sf_info f = Some m -> kept (GMap (Some m)) -> marshal_file T f = Some b -> unmarshal_file T b = Some f.
Proof.
  intros E K H. change (unmarshal_file T b) with (unmarshal (json_files T) b). rewrite (fa_round _ _ (files_faithful T of_int S) f b H). destruct f as [c l i]. cbn [sf_info] in E. subst i.
  cbn [sf_creation sf_lookup sf_info]. unfold become_info. rewrite (kept_become of_int _ K). reflexivity.
Qed.
Lemma one_entry c l k v j : in_years c -> in_years l -> tree T v = Some j -> exists b, marshal_file T (MkSfile c l (Some [(k, v)])) = Some b /\
  unmarshal_file T b = Some (MkSfile c l (Some [(coerce 0 k, become of_int v)])).
Proof.
  intros C L J. assert (X : exists b, marshal_file T (MkSfile c l (Some [(k, v)])) = Some b).
  { apply (marshal_file_iff T of_int S). cbn [sf_creation sf_lookup sf_info]. split; [apply (so_years T of_int S), C|]. split; [apply (so_years T of_int S), L|].
    constructor. constructor; [|constructor]. apply tree_iff. eauto. }
  destruct X as [b H]. exists b. split; [exact H|]. change (unmarshal_file T b) with (unmarshal (json_files T) b). rewrite (fa_round _ _ (files_faithful T of_int S) _ _ H). reflexivity.
Qed.
Theorem int_info c l k z : in_years c -> in_years l -> utf8_wf k -> (- 2 ^ 63 <= z < 2 ^ 64)%Z -> exists b,
  marshal_file T (MkSfile c l (Some [(k, GInt z)])) = Some b /\ unmarshal_file T b = Some (MkSfile c l (Some [(k, GFloat (of_int z))])).
Proof.
  intros C L W Z. destruct (proj2 (tree_iff T (GInt z)) (Ca_int T z Z)) as [j J]. destruct (one_entry c l k (GInt z) j C L J) as (b & H & E). rewrite (wf_coerce k W) in E. eauto.
Qed.
Theorem nil_info c l k : in_years c -> in_years l -> utf8_wf k -> exists b,
  marshal_file T (MkSfile c l (Some [(k, GSlice None)])) = Some b /\ unmarshal_file T b = Some (MkSfile c l (Some [(k, GNil)])).
Proof.
  intros C L W. destruct (one_entry c l k (GSlice None) _ C L eq_refl) as (b & H & E). rewrite (wf_coerce k W) in E. eauto.
Qed.
(* two entries, one left *)
Theorem lost_entry c l s1 s2 : in_years c -> in_years l -> exists b,
  marshal_file T (MkSfile c l (Some [([xfe], GStr s1); ([xff], GStr s2)])) = Some b /\
  unmarshal_file T b = Some (MkSfile c l (Some [(ufffd, GStr (coerce 0 s2))])).
Proof.
  intros C L. assert (X : exists b, marshal_file T (MkSfile c l (Some [([xfe], GStr s1); ([xff], GStr s2)])) = Some b).
  { apply (marshal_file_iff T of_int S). cbn [sf_creation sf_lookup sf_info]. split; [apply (so_years T of_int S), C|]. split; [apply (so_years T of_int S), L|].
    constructor. repeat constructor. }
  destruct X as [b H]. exists b. split; [exact H|]. change (unmarshal_file T b) with (unmarshal (json_files T) b). rewrite (fa_round _ _ (files_faithful T of_int S) _ _ H). reflexivity.
Qed.
Theorem told_key s b : marshal_session T s = Some b -> exists s', unmarshal_session T b = Some s' /\ (en_key s' = en_key s <-> utf8_wf (en_key s)).
Proof. intros H. apply (told T of_int S) in H as [H _]. eexists. split; [exact H|]. cbn [en_key]. apply coerce_id. Qed.
Theorem wrong_key c l i : in_years c -> in_years l -> carried T (GMap i) ->
  forall k, ~ utf8_wf k -> exists b s', marshal_session T (MkEncoded k (MkSfile c l i)) = Some b /\ unmarshal_session T b = Some s' /\ en_key s' <> k.
Proof.
  intros C L I k N. destruct (proj2 (marshal_session_iff T of_int S (MkEncoded k (MkSfile c l i)))) as [b H].
  { cbn [en_file sf_creation sf_lookup sf_info]. split; [apply (so_years T of_int S), C|]. split; [apply (so_years T of_int S), L|exact I]. }
  destruct (told_key _ _ H) as (s' & U & K). exists b, s'. split; [exact H|]. split; [exact U|]. intros E. apply N, K. exact E.
Qed.
End Consequences.
Lemma generated_utf8 rand b k : gives rand b -> generateSessionKey rand = Some k -> utf8_wf k.
Proof.
  intros G H. destruct (key_shape rand b G) as (k' & E & _ & U). assert (k' = k) as -> by congruence. apply ascii_wf. eapply Forall_impl; [|exact U]. cbv beta. unfold url_safe. lia.
Qed.
