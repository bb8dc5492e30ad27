(* The texts of parse errors. *)
From Coq Require Import Strings.String.
From Coq Require Import List Arith NArith ZArith Bool Lia.
From Coq Require Import ZifyBool ZifyNat ZifyN.
From Verif Require Import BaseBytes ModelMessage ModelErrors SpecWire SpecMessage SpecWrite ProofMessage ProofWire ModelReport SpecReport ProofReport.
Import ListNotations.
Open Scope list_scope.
Open Scope nat_scope.
Ltac Zify.zify_post_hook ::= Z.div_mod_to_equations.

Lemma zero_byte c : b2n c < 1 -> c = x00.
Proof. intros H. apply b2N_inj. unfold b2n in H. change (b2N x00) with 0%N. lia. Qed.

Definition err_of (d : fields * option perr) : option perr := snd d.
Ltac tests := repeat match goal with
  | |- context [if ?c then _ else _] => lazymatch c with context [if _ then _ else _] => fail | _ => destruct c eqn:? end
  end.
Ltac settle := cbn [err_of snd]; intros ? [=]; subst; cbv [parse_text nth beq b2N].

Lemma tag_cons k r : (k < 256)%N -> tag (n2b k :: r) = k.
Proof. intros H. unfold tag. cbn [nth]. apply b2N_n2b_small, H. Qed.

Lemma known_cases k x : In (k, x) table -> In k known_types /\ (k < 256)%N.
Proof. intros H. split; [apply (in_map fst) in H; exact H|]. cbn [table In] in H. repeat (destruct H as [H|H]; [injection H as <- _; reflexivity|]). destruct H. Qed.


Ltac known := repeat match goal with |- context [beq (n2b ?k) ?m] => let v := eval vm_compute in (beq (n2b k) m) in change (beq (n2b k) m) with v end; cbv beta iota zeta delta [orb].
Ltac side T G := first
  [ exact T | rewrite T; cbn [In]; tauto | unfold shorter, unaligned; lia | apply pct_d_number, G | apply byte_number | apply zero_byte; lia
  | intros _; unfold unaligned; lia | rewrite T; intros X; discriminate X | intros E0; subst; cbn in *; lia ].
Lemma said_bad k x r e : In (k, x) table -> go_length (n2b k :: r) -> err_of (fst x (n2b k :: r)) = Some e ->
  bad_frame (n2b k :: r) (parse_text (n2b k :: r) e).
Proof.
  intros I G. pose proof (tag_cons k r (proj2 (known_cases k x I))) as T. set (b := n2b k :: r) in *.
  assert (L : 1 <= length b) by (cbn; lia). assert (Z : nth 0 b x00 = n2b k) by reflexivity. clearbody b.
  cbn [table In] in I.
  repeat (destruct I as [I|I]; [|]). all: try solve [destruct I]. all: injection I as <- <-; cbn [fst].
  all: unfold dec_err, dec_special, dec_created, dec_one, dec_conf, dec_close, dec_restore, dec_signal, dec_signal16, dec_request, dec_request16, dec_reply, dec_reply16, at_;
    cbv zeta; tests; cbn [err_of snd]; intros E1; try discriminate E1; injection E1 as <-; unfold parse_text; cbv zeta; rewrite ?Z; known.
  all: first [ solve [apply BF_conf; side T G] | solve [apply BF_error; side T G] | solve [apply BF_created; side T G] | solve [apply BF_restore; side T G]
          | solve [apply BF_signal; side T G] | solve [apply BF_signal16; side T G] | solve [apply BF_request; side T G] | solve [apply BF_reply; side T G]
          | solve [apply BF_reply16; side T G] | solve [apply BF_special; side T G] | solve [apply BF_heartbeat; side T G] | solve [apply BF_closed; side T G]
          | solve [apply BF_close; side T G] | solve [apply BF_odd_signal; side T G] | solve [apply BF_odd_request; side T G] | solve [apply BF_odd_reply; side T G]
          | solve [apply BF_code0; side T G] | solve [apply BF_code; side T G] | solve [apply BF_name; side T G] | solve [apply BF_name16; side T G]
          | solve [apply BF_request_name; side T G] | idtac ].
Qed.

(* texts are unique *)
Lemma bad_said k x r t : In (k, x) table -> go_length (n2b k :: r) -> bad_frame (n2b k :: r) t ->
  exists e, err_of (fst x (n2b k :: r)) = Some e /\ t = parse_text (n2b k :: r) e.
Proof.
  intros I G. pose proof (tag_cons k r (proj2 (known_cases k x I))) as T. pose proof (proj1 (known_cases k x I)) as KN. set (b := n2b k :: r) in *.
  assert (L : 1 <= length b) by (cbn; lia). assert (Z : nth 0 b x00 = n2b k) by reflexivity. clearbody b.
  intros B. destruct B; rewrite ?T in *; try contradiction;
    repeat match goal with
    | N : number (length _) ?n |- _ => rewrite <- (number_inj _ _ _ (pct_d_number _ G) N); clear N
    | N : number (b2n ?c) ?n |- _ => rewrite <- (number_inj _ _ _ (byte_number c) N); clear N
    end.
  all: cbn [table In] in I; repeat (destruct I as [I|I]; [|]).
  all: try solve [destruct I]. all: injection I as <- <-; cbn [fst]. 
  all: try discriminate. all: repeat match goal with H : In _ _ |- _ => clear KN; cbn [In] in H; repeat (destruct H as [H|H]; [try discriminate H|]); try solve [destruct H] end.
  all: try match goal with H : nth 9 _ x00 = x00 |- _ => rewrite H end.
  all: unfold dec_err, dec_special, dec_created, dec_one, dec_conf, dec_close, dec_restore, dec_signal, dec_signal16, dec_request, dec_request16, dec_reply, dec_reply16, at_, shorter, unaligned in *;
    cbv zeta.
  all: try match goal with H : nth 9 _ x00 = x00 |- _ => rewrite H; change (b2n x00) with 0 end.
  all: tests; try (exfalso; lia).
  all: eexists; (split; [reflexivity|]); unfold parse_text; cbv zeta; rewrite ?Z; known; try reflexivity.
Qed.

Lemma read_error m b : blank m -> go_length b -> b <> [] ->
  exists m' ok e, ModelMessage.ReadBytes m b = Some (m', ok, e) /\
    (forall t, malformed (length (m_buf m)) b t <-> option_map (parse_text b) e = Some t) /\ (e = None -> ok = true).
Proof.
  intros B G NE. assert (L : 1 <= length b) by (destruct b; [congruence|cbn; lia]).
  destruct (Nat.le_gt_cases (length b) (length (m_buf m))) as [S|S].
  - destruct (dec b) as [[ok e] o] eqn:D. destruct (ReadBytes_dec m b ok e o L S B D) as (m' & R & _). exists m', ok, e. split; [exact R|].
    unfold malformed. destruct b as [|h r]; [congruence|]. unfold dec in D. rewrite at_0 in D.
    destruct (dec_switch h) as [x|] eqn:E.
    + pose proof (dec_switch_inv _ _ E) as I. assert (H : h = n2b (b2N h)) by (symmetry; apply n2b_b2N).
      destruct x as [d en]. cbn in D. destruct (d (h :: r)) as [f e'] eqn:De. injection D as <- <- <-. split; [|reflexivity]. intros t.
      rewrite H in G, De |- *. split.
      * intros [[A _]|[_ A]]; [rewrite <- H in A; lia|]. destruct (bad_said _ _ _ _ I G A) as (e0 & E0 & ->). cbn [fst] in E0. rewrite De in E0. cbn [err_of snd] in E0. rewrite E0. reflexivity.
      * intros A. right. split; [rewrite <- H; exact S|]. destruct e' as [e'|]; [|discriminate]. injection A as <-.
        apply (said_bad _ _ _ e' I G). cbn [fst]. rewrite De. reflexivity.
    + injection D as <- <- <-. split; [|discriminate]. apply dec_switch_none in E. intros t. split.
      * intros [[A _]|[_ A]]; [lia|]. change (b2N h) with (tag (h :: r)) in E.
        destruct A; try reflexivity; exfalso; apply E; unfold known_types; cbn [In] in *; intuition congruence.
      * intros [= <-]. right. split; [exact S|]. apply BF_type; [discriminate|exact E].
  - exists m, false, (Some POverflow). split.
    { unfold ModelMessage.ReadBytes. destruct (Nat.ltb_spec (length b) 1); [lia|]. destruct (Nat.ltb_spec (length (m_buf m)) (length b)); [reflexivity|lia]. }
    split; [|discriminate]. intros t. unfold malformed. split.
    + intros [[_ ->]|[A _]]; [reflexivity|lia].
    + intros [= <-]. left. split; [exact S|reflexivity].
Qed.
Lemma read_text m b : blank m -> go_length b -> b <> [] ->
  exists m' ok e, ReadBytes m b = Some (m', ok, e) /\ (forall t, e = Some (Foreign (Some t)) <-> malformed (length (m_buf m)) b t) /\
    (e = None \/ exists t, e = Some (Foreign (Some t))) /\ (e = None -> ok = true).
Proof.
  intros B G NE. destruct (read_error m b B G NE) as (m' & ok & e & R & H & O). unfold ReadBytes. rewrite R.
  do 3 eexists. split; [reflexivity|]. destruct e as [e|]; cbn [option_map] in *.
  - split; [|split; [right; eexists; reflexivity|discriminate]]. intros t. rewrite H. unfold Errorf. split; congruence.
  - split; [|split; [left; reflexivity|intros _; apply O; reflexivity]]. intros t. rewrite H. split; discriminate.
Qed.
Lemma socket_text m b : blank m -> go_length b ->
  exists m' r, ReadData m b = Some (m', r) /\
    (r = None <-> b <> [] /\ forall t, ~ malformed (length (m_buf m)) b t) /\
    (forall e, r = Some e <-> exists t, e = ErrSockRead false (Some (Foreign (Some t))) /\
       (b = [] /\ t = t$"no message type" \/ b <> [] /\ malformed (length (m_buf m)) b t)).
Proof.
  intros B G. unfold ReadData. destruct (list_eq_dec Byte.byte_eq_dec b []) as [->|NE].
  - cbn. do 2 eexists. split; [reflexivity|]. split; [split; [discriminate|intros [X _]; congruence]|].
    intros e. split.
    + intros [= <-]. eexists. split; [reflexivity|left; split; reflexivity].
    + intros (t & -> & [[_ ->]|[X _]]); [reflexivity|congruence].
  - destruct (read_text m b B G NE) as (m' & ok & e & -> & H & [->|[t ->]] & O).
    + do 2 eexists. split; [reflexivity|]. rewrite (O eq_refl). cbn. split.
      * split; [intros _; split; [exact NE|intros t M; apply H in M; discriminate]|reflexivity].
      * intros e. split; [discriminate|]. intros (t & _ & [[X _]|[_ M]]); [congruence|apply H in M; discriminate].
    + do 2 eexists. split; [reflexivity|]. split.
      * split; [discriminate|]. intros [_ X]. destruct (X t). apply H. reflexivity.
      * intros e. split.
        -- intros [= <-]. exists t. split; [reflexivity|right; split; [exact NE|apply H; reflexivity]].
        -- intros (t' & -> & [[X _]|[_ M]]); [congruence|]. apply H in M. injection M as ->. reflexivity.
Qed.
