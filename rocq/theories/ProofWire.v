(* The parser accepts exactly the grammar of SpecWire. *)
From Coq Require Import List Arith NArith ZArith Lia Bool.
From Coq Require Import ZifyBool ZifyNat ZifyN.
From Verif Require Import BaseBytes ModelMessage SpecWire SpecMessage ProofMessage.
Import ListNotations.
Open Scope nat_scope.
Ltac Zify.zify_post_hook ::= Z.div_mod_to_equations.

Definition table : list (N * ((bytes -> fields * option perr) * encoding)) :=
  [ (0, (dec_err, Binary)); (1, (dec_special, Binary)); (2, (dec_special, Binary));
    (3, (dec_special, Binary)); (4, (dec_special, Binary)); (5, (dec_special, Binary));
    (21, (dec_created, Binary)); (22, (dec_one, Binary)); (23, (dec_conf, Binary));
    (31, (dec_close, Binary)); (32, (dec_restore, Binary)); (33, (dec_one, Binary));
    (63, (dec_signal, Binary)); (64, (dec_signal, Utf8)); (65, (dec_signal16, Utf16));
    (127, (dec_request, Binary)); (128, (dec_request, Utf8)); (129, (dec_request16, Utf16));
    (191, (dec_reply, Binary)); (192, (dec_reply, Utf8)); (193, (dec_reply16, Utf16)) ]%N.

Lemma dec_switch_inv t x : dec_switch t = Some x -> In (b2N t, x) table.
Proof.
  unfold dec_switch. destruct t; cbv [b2N Byte.to_N];
    intros H; try discriminate H; injection H as <-;
    repeat (first [left; reflexivity | right]).
Qed.
Lemma dec_switch_none t : dec_switch t = None <-> ~ In (b2N t) known_types.
Proof.
  split.
  - unfold dec_switch, known_types. intros H K. revert H.
    cbn [In] in K. repeat (destruct K as [<-|K]; [discriminate|]). destruct K.
  - intros H. destruct (dec_switch t) as [x|] eqn:E; [|reflexivity].
    exfalso; apply H. apply dec_switch_inv in E.
    apply (in_map fst) in E. exact E.
Qed.
Lemma dec_switch_tag k x : In (k, x) table -> dec_switch (n2b k) = Some x.
Proof.
  unfold dec_switch. cbn [table In]. intros H.
  repeat (destruct H as [H|H]; [injection H as <- <-; rewrite b2N_n2b_small by lia; reflexivity|]).
  destruct H.
Qed.

Lemma flag_val l : length l <= 255 -> b2n (flag l) = length l.
Proof. intros. unfold flag. apply b2n_n2b. lia. Qed.

Lemma nil_app_len (a b : bytes) : a ++ b <> [] -> 1 <= length a + length b.
Proof. destruct a, b; cbn; intros; try lia. congruence. Qed.
Lemma nonnil_len (a : bytes) : a <> [] -> 1 <= length a.
Proof. destruct a; cbn; intros; [congruence|lia]. Qed.

Lemma at_0 t l : at_ (t :: l) 0 = t. Proof. reflexivity. Qed.
Lemma at_ident t id x l : length id = 8 -> at_ (t :: id ++ x :: l) 9 = x.
Proof.
  intros H. unfold at_. cbn [nth]. rewrite app_nth2 by lia. rewrite H. reflexivity.
Qed.
Lemma sub_ident t id l : length id = 8 -> sub (t :: id ++ l) 1 8 = id.
Proof. intros H. unfold sub. cbn [skipn]. apply firstn_app_exact. congruence. Qed.
Lemma skipn_cons_app {A} (t : A) (a l : list A) n : n = S (length a) -> skipn n (t :: a ++ l) = l.
Proof. intros ->. cbn [skipn]. apply skipn_app_exact. reflexivity. Qed.

Lemma skipn_skipn' {A} (l : list A) a b : skipn a (skipn b l) = skipn (b + a) l.
Proof.
  revert l; induction b; intros l; [reflexivity|].
  destruct l; cbn [skipn Nat.add]; [apply skipn_nil|apply IHb].
Qed.

Lemma dec_tag k d en rest :
  In (k, (d, en)) table ->
  dec (n2b k :: rest) =
  let '(f, e) := d (n2b k :: rest) in (true, e, obs_of (n2b k) en f).
Proof. intros H. unfold dec. rewrite at_0, (dec_switch_tag _ _ H). reflexivity. Qed.

Ltac intab := cbn [table In]; repeat (first [left; reflexivity | right]).

Lemma even_len_alt n : n mod 2 = 0 \/ n mod 2 = 1.
Proof. lia. Qed.

Ltac lensimp := cbn [length]; rewrite ?app_length; cbn [length]; rewrite ?app_length.

Lemma frame_complete b c :
  frame b c -> exists o, dec b = (true, None, o) /\ shows o c.
Proof.
  intros F; destruct F.
  - (* signal *)
    pose proof (nil_app_len _ _ H1).
    assert (D : dec_signal (n2b (sig_tag e) :: flag name :: name ++ payload) = (Fnp name payload, None)).
    { unfold dec_signal; cbv zeta. lensimp.
      change (at_ _ 1) with (flag name). rewrite flag_val by assumption. brk.
      unfold sub. cbn [skipn Nat.add].
      rewrite firstn_app_exact, skipn_app_exact by reflexivity. reflexivity. }
    destruct e; try congruence; cbn [sig_tag] in *; erewrite dec_tag by intab; rewrite D;
      (eexists; split; [reflexivity|]); unfold shows; cbn; intuition.
  - (* signal16 *)
    pose proof (nonnil_len _ H2). unfold padding, even_len in *.
    assert (D : dec_signal16 (n2b 65 :: flag name :: name ++ pad ++ payload) = (Fnp name payload, None)).
    { unfold dec_signal16; cbv zeta. lensimp.
      change (at_ _ 1) with (flag name). rewrite flag_val by assumption. brk.
      unfold sub. rewrite <- H0, <- Nat.add_assoc. cbn [skipn Nat.add].
      rewrite firstn_app_exact by reflexivity.
      rewrite app_assoc, skipn_app_exact by (rewrite app_length; reflexivity). reflexivity. }
    erewrite dec_tag by intab; rewrite D; (eexists; split; [reflexivity|]); unfold shows; cbn; intuition.
  - (* request *)
    pose proof (nil_app_len _ _ H2).
    assert (D : dec_request (n2b (req_tag e) :: ident ++ flag name :: name ++ payload) = (Finp ident name payload, None)).
    { unfold dec_request; cbv zeta. rewrite at_ident, sub_ident by assumption. rewrite flag_val by assumption.
      lensimp. brk. unfold sub.
      change (n2b (req_tag e) :: ident ++ flag name :: name ++ payload)
        with ((n2b (req_tag e) :: ident) ++ [flag name] ++ name ++ payload).
      rewrite app_assoc. rewrite skipn_app_exact by (rewrite app_length; cbn [length]; lia).
      rewrite firstn_app_exact by reflexivity.
      rewrite app_assoc. rewrite skipn_app_exact by (rewrite !app_length; cbn [length]; lia). reflexivity. }
    destruct e; try congruence; cbn [req_tag] in *; erewrite dec_tag by intab; rewrite D;
      (eexists; split; [reflexivity|]); unfold shows; cbn; intuition.
  - (* request16 *)
    pose proof (nil_app_len _ _ H3). unfold padding, even_len in *.
    assert (D : dec_request16 (n2b 129 :: ident ++ flag name :: name ++ pad ++ payload) = (Finp ident name payload, None)).
    { unfold dec_request16; cbv zeta. rewrite at_ident, sub_ident by assumption. rewrite flag_val by assumption.
      lensimp. brk. unfold sub.
      change (n2b 129 :: ident ++ flag name :: name ++ pad ++ payload)
        with ((n2b 129 :: ident) ++ [flag name] ++ name ++ pad ++ payload).
      rewrite app_assoc. rewrite skipn_app_exact by (rewrite app_length; cbn [length]; lia).
      rewrite firstn_app_exact by reflexivity.
      rewrite !app_assoc. rewrite skipn_app_exact by (rewrite !app_length; cbn [length]; lia). reflexivity. }
    erewrite dec_tag by intab; rewrite D; (eexists; split; [reflexivity|]); unfold shows; cbn; intuition.
  - (* reply *)
    assert (D : dec_reply (n2b (rep_tag e) :: ident ++ payload) = (Finp ident [] payload, None)).
    { unfold dec_reply. rewrite sub_ident by assumption. lensimp. brk.
      rewrite skipn_cons_app by lia. reflexivity. }
    destruct e; try congruence; cbn [rep_tag] in *; erewrite dec_tag by intab; rewrite D;
      (eexists; split; [reflexivity|]); unfold shows; cbn; intuition.
  - (* reply16 *)
    unfold even_len in *.
    assert (D : dec_reply16 (n2b 193 :: ident ++ pad :: payload) = (Finp ident [] payload, None)).
    { unfold dec_reply16. rewrite sub_ident by assumption. lensimp. brk.
      change (ident ++ pad :: payload) with (ident ++ [pad] ++ payload). rewrite app_assoc.
      rewrite skipn_cons_app by (rewrite app_length; cbn [length]; lia). reflexivity. }
    erewrite dec_tag by intab; rewrite D; (eexists; split; [reflexivity|]); unfold shows; cbn; intuition.
  - (* error *)
    assert (D : dec_err (n2b 0 :: ident ++ flag code :: code ++ msg) = (Finp ident code msg, None)).
    { unfold dec_err; cbv zeta. rewrite at_ident, sub_ident by assumption. rewrite flag_val by lia.
      lensimp. brk. unfold sub.
      change (n2b 0 :: ident ++ flag code :: code ++ msg)
        with ((n2b 0 :: ident) ++ [flag code] ++ code ++ msg).
      rewrite app_assoc. rewrite skipn_app_exact by (rewrite app_length; cbn [length]; lia).
      rewrite firstn_app_exact by reflexivity.
      rewrite app_assoc. rewrite skipn_app_exact by (rewrite !app_length; cbn [length]; lia). reflexivity. }
    erewrite dec_tag by intab; rewrite D; (eexists; split; [reflexivity|]); unfold shows; cbn; intuition.
  - (* special *)
    assert (D : dec_special (n2b t :: ident ++ rest) = (Fid ident, None)).
    { unfold dec_special. rewrite sub_ident by assumption. lensimp. brk. reflexivity. }
    assert (T : In (t, (dec_special, Binary)) table).
    { assert (t = 1 \/ t = 2 \/ t = 3 \/ t = 4 \/ t = 5)%N as [->|[->|[->|[->| ->]]]] by lia; intab. }
    rewrite (dec_tag _ _ _ _ T), D. eexists; split; [reflexivity|].
    unfold shows; cbn [obs_of o_type k_type]. rewrite b2N_n2b_small by lia.
    assert (has_ident t = true) as ->
      by (assert (t = 1 \/ t = 2 \/ t = 3 \/ t = 4 \/ t = 5)%N as [->|[->|[->|[->| ->]]]] by lia; reflexivity).
    cbn. intuition.
  - (* created *)
    pose proof (nonnil_len _ H).
    assert (D : dec_created (n2b 21 :: info) = (Fpl info, None)).
    { unfold dec_created. lensimp. brk. reflexivity. }
    erewrite dec_tag by intab; rewrite D; (eexists; split; [reflexivity|]); unfold shows; cbn; intuition.
  - erewrite dec_tag by intab; (eexists; split; [reflexivity|]); unfold shows; cbn; intuition.
  - (* conf *)
    destruct c as [ma mi tm bs su]; cbn [w_major w_minor w_timeout_ms w_bufsize w_sub] in *.
    assert (L4 : length (le_put 4 tm) = 4) by apply le_put_length.
    assert (L4' : length (le_put 4 bs) = 4) by apply le_put_length.
    assert (D : dec_conf (n2b 23 :: n2b ma :: n2b mi :: le_put 4 tm ++ le_put 4 bs ++ su)
      = (Fconf (n2b ma) (n2b mi) (Z.of_N tm * 1000000) bs su, None)).
    { unfold dec_conf. cbn [length]. rewrite !app_length, L4, L4'. brk.
      change (at_ _ 1) with (n2b ma). change (at_ _ 2) with (n2b mi).
      unfold sub. set (A := le_put 4 tm) in *. set (B := le_put 4 bs) in *.
      set (L := A ++ B ++ su) in *.
      change (skipn 3 (n2b 23 :: n2b ma :: n2b mi :: L)) with L.
      change (skipn 7 (n2b 23 :: n2b ma :: n2b mi :: L)) with (skipn 4 L).
      change (skipn 11 (n2b 23 :: n2b ma :: n2b mi :: L)) with (skipn 8 L). unfold L; clear L.
      assert (S7 : forall n, skipn (4 + n) (A ++ B ++ su) = skipn n (B ++ su)).
      { intros n. rewrite <- skipn_skipn', skipn_app_exact by congruence. reflexivity. }
      pose proof (S7 0) as S70. pose proof (S7 4) as S74. change (4 + 0) with 4 in S70. change (4 + 4) with 8 in S74.
      rewrite skipn_O in S70.
      rewrite firstn_app_exact by congruence. rewrite S70, S74.
      rewrite firstn_app_exact, skipn_app_exact by congruence.
      unfold A, B. rewrite !le_get_put. change (256 ^ N.of_nat 4)%N with (2 ^ 32)%N.
      rewrite !N.mod_small by assumption. reflexivity. }
    erewrite dec_tag by intab; rewrite D; (eexists; split; [reflexivity|]); unfold shows; cbn - [N.modulo Z.mul b2N n2b].
    rewrite !b2N_n2b_small by (assumption || lia). repeat split.
  - (* close session *)
    assert (D : dec_close (n2b 31 :: ident) = (Fid ident, None)).
    { unfold dec_close. rewrite <- (app_nil_r ident). rewrite sub_ident by assumption. rewrite app_nil_r.
      lensimp. brk. reflexivity. }
    erewrite dec_tag by intab; rewrite D; (eexists; split; [reflexivity|]); unfold shows; cbn; intuition.
  - (* restore *)
    pose proof (nonnil_len _ H0).
    assert (D : dec_restore (n2b 32 :: ident ++ key) = (Finp ident [] key, None)).
    { unfold dec_restore. rewrite sub_ident by assumption. lensimp. brk.
      rewrite skipn_cons_app by lia. reflexivity. }
    erewrite dec_tag by intab; rewrite D; (eexists; split; [reflexivity|]); unfold shows; cbn; intuition.
  - erewrite dec_tag by intab; (eexists; split; [reflexivity|]); unfold shows; cbn; intuition.
Qed.

(* ----- soundness ----- *)
Lemma split_at (b : bytes) n : n <= length b -> exists p q, b = p ++ q /\ length p = n.
Proof.
  intros. exists (firstn n b), (skipn n b). split; [symmetry; apply firstn_skipn|].
  rewrite firstn_length. lia.
Qed.
Lemma tag_eq t k rest : b2N t = k -> t :: rest = n2b k :: rest.
Proof. intros <-. rewrite n2b_b2N. reflexivity. Qed.
Lemma flag_eq (f : byte) l : b2n f = length l -> f = flag l.
Proof. intros H. unfold flag. rewrite <- H. symmetry. apply n2b_b2n. Qed.

(* a body of at least 9 bytes after the tag: identifier, one more byte, rest *)
Lemma body9 (l : bytes) : 9 <= length l ->
  exists ident f rest, l = ident ++ f :: rest /\ length ident = 8.
Proof.
  intros H. destruct (split_at l 8) as (p & q & -> & Hp); [lia|].
  rewrite app_length in H. destruct q as [|f q]; [cbn in H; lia|].
  exists p, f, q. auto.
Qed.

Lemma frame_sound b o : b <> [] -> dec b = (true, None, o) -> exists c, frame b c.
Proof.
  intros Hb. destruct b as [|t l]; [congruence|clear Hb].
  unfold dec. rewrite at_0. destruct (dec_switch t) as [[d en]|] eqn:E; [|discriminate].
  apply dec_switch_inv in E.
  destruct (d (t :: l)) as [f e] eqn:Ed. intros H; injection H as -> _.
  assert (Hsp : forall k, (1 <= k <= 5)%N -> b2N t = k -> dec_special (t :: l) = (f, None) ->
                exists c, frame (t :: l) c).
  { intros k Hk Ht. unfold dec_special. cbn [length]. brk; intros X; try discriminate.
    destruct (split_at l 8) as (p & q & -> & Hp); [lia|].
    rewrite (tag_eq _ _ _ Ht). eexists. apply F_special; assumption. }
  assert (Hsig : forall en, en <> EU16 -> b2N t = sig_tag en -> dec_signal (t :: l) = (f, None) ->
                exists c, frame (t :: l) c).
  { intros e0 He Ht. unfold dec_signal; cbv zeta. destruct l as [|n l]; [discriminate|].
    change (at_ _ 1) with n. cbn [length].
    destruct (Nat.ltb_spec (S (S (length l))) 3); [discriminate|].
    destruct (Nat.ltb_spec (S (S (length l))) (2 + b2n n)); [discriminate|]. intros _.
    destruct (split_at l (b2n n)) as (p & q & -> & Hp); [lia|].
    rewrite (tag_eq _ _ _ Ht), (flag_eq n p) by congruence. eexists. apply F_signal; [assumption| |].
    - pose proof (b2n_lt n). lia.
    - destruct p, q; cbn in *; try congruence. lia. }
  assert (Hreq : forall en, en <> EU16 -> b2N t = req_tag en -> dec_request (t :: l) = (f, None) ->
                exists c, frame (t :: l) c).
  { intros e0 He Ht. unfold dec_request; cbv zeta.
    destruct (Nat.ltb_spec (length (t :: l)) 11) as [L|L]; [discriminate|]. cbn [length] in L.
    destruct (body9 l) as (id & n & rest & -> & Hid); [lia|]. rewrite at_ident by assumption.
    cbn [length]. rewrite app_length in *. cbn [length] in *.
    destruct (Nat.ltb_spec (S (length id + S (length rest))) (10 + b2n n)); [discriminate|]. intros _.
    destruct (split_at rest (b2n n)) as (p & q & -> & Hp); [lia|].
    rewrite (tag_eq _ _ _ Ht), (flag_eq n p) by congruence. eexists. apply F_request; try assumption.
    - pose proof (b2n_lt n). lia.
    - destruct p, q; cbn in *; try congruence. lia. }
  assert (Hrep : forall en, en <> EU16 -> b2N t = rep_tag en -> dec_reply (t :: l) = (f, None) ->
                exists c, frame (t :: l) c).
  { intros e0 He Ht. unfold dec_reply; cbv zeta. cbn [length]. brk; intros X; try discriminate.
    destruct (split_at l 8) as (p & q & -> & Hp); [lia|].
    rewrite (tag_eq _ _ _ Ht). eexists. apply F_reply; assumption. }
  cbn [table In] in E.
  destruct E as [E|[E|[E|[E|[E|[E|[E|[E|[E|[E|[E|[E|[E|[E|[E|[E|[E|[E|[E|[E|[E|[]]]]]]]]]]]]]]]]]]]]]];
    injection E as Ht <- <-; symmetry in Ht;
    try (eapply Hsp; [|exact Ht|exact Ed]; lia).
  - (* error *)
    unfold dec_err in Ed; cbv zeta in Ed.
    destruct (Nat.ltb_spec (length (t :: l)) 11) as [L|L]; [discriminate|]. cbn [length] in L.
    destruct (body9 l) as (id & n & rest & -> & Hid); [lia|]. rewrite at_ident in Ed by assumption.
    cbn [length] in Ed. rewrite app_length in *. cbn [length] in *.
    destruct (Nat.ltb_spec (b2n n) 1); [discriminate|].
    destruct (Nat.ltb_spec (S (length id + S (length rest))) (10 + b2n n)); [discriminate|].
    destruct (split_at rest (b2n n)) as (p & q & -> & Hp); [lia|].
    rewrite (tag_eq _ _ _ Ht), (flag_eq n p) by congruence. eexists. apply F_error; try assumption.
    pose proof (b2n_lt n). lia.
  - (* created *)
    unfold dec_created in Ed. cbn [length] in Ed. destruct (Nat.ltb_spec (S (length l)) 2); [discriminate|].
    rewrite (tag_eq _ _ _ Ht). eexists. apply F_created. destruct l; cbn in *; [lia|congruence].
  - unfold dec_one in Ed. cbn [length] in Ed. destruct (Nat.eqb_spec (S (length l)) 1); [|discriminate].
    destruct l; [|cbn in *; lia]. rewrite (tag_eq _ _ _ Ht). eexists. apply F_closed.
  - (* conf *)
    unfold dec_conf in Ed. destruct (Nat.ltb_spec (length (t :: l)) 11) as [L|L]; [discriminate|].
    cbn [length] in L. destruct l as [|a [|bb l]]; [cbn in L; lia..|]. cbn [length] in L.
    destruct (split_at l 4) as (p & l' & -> & Hp); [lia|]. rewrite app_length in L.
    destruct (split_at l' 4) as (q & s & -> & Hq); [lia|].
    rewrite (tag_eq _ _ _ Ht).
    rewrite <- (le_put_get p), <- (le_put_get q), <- (n2b_b2N a), <- (n2b_b2N bb). rewrite Hp, Hq.
    pose proof (le_get_bound p) as Bp. pose proof (le_get_bound q) as Bq. rewrite Hp in Bp. rewrite Hq in Bq.
    eexists. apply (F_conf (MkWConf (b2N a) (b2N bb) (le_get p) (le_get q) s));
      cbn [w_major w_minor w_timeout_ms w_bufsize]; try apply b2N_lt; assumption.
  - (* close session *)
    unfold dec_close in Ed. cbn [length] in Ed. destruct (Nat.eqb_spec (S (length l)) 9); [|discriminate].
    rewrite (tag_eq _ _ _ Ht). eexists. apply F_close_session. lia.
  - (* restore *)
    unfold dec_restore in Ed. cbn [length] in Ed. destruct (Nat.ltb_spec (S (length l)) 10); [discriminate|].
    destruct (split_at l 8) as (p & q & -> & Hp); [lia|]. rewrite app_length in *.
    rewrite (tag_eq _ _ _ Ht). eexists. apply F_restore; [assumption|]. destruct q; cbn in *; [lia|congruence].
  - unfold dec_one in Ed. cbn [length] in Ed. destruct (Nat.eqb_spec (S (length l)) 1); [|discriminate].
    destruct l; [|cbn in *; lia]. rewrite (tag_eq _ _ _ Ht). eexists. apply F_heartbeat.
  - exact (Hsig EBin ltac:(discriminate) Ht Ed).
  - exact (Hsig EU8 ltac:(discriminate) Ht Ed).
  - (* signal16 *)
    unfold dec_signal16 in Ed; cbv zeta in Ed. destruct l as [|n l]; [discriminate|].
    change (at_ _ 1) with n in Ed. cbn [length] in Ed.
    destruct (Nat.ltb_spec (S (S (length l))) 4); [discriminate|].
    destruct (Nat.eqb_spec (S (S (length l)) mod 2) 0) as [Ev|]; cbn [negb] in Ed; [|discriminate].
    destruct (Nat.ltb_spec (S (S (length l))) (4 + b2n n + b2n n mod 2)); [discriminate|].
    destruct (split_at l (b2n n)) as (p & q & -> & Hp); [lia|]. rewrite app_length in *.
    destruct (split_at q (b2n n mod 2)) as (pad & r & -> & Hpad); [lia|]. rewrite app_length in *.
    rewrite (tag_eq _ _ _ Ht), (flag_eq n p) by congruence. eexists. apply F_signal16.
    + pose proof (b2n_lt n). lia.
    + unfold padding. congruence.
    + unfold even_len. lia.
    + destruct r; cbn [length] in *; [lia|congruence].
  - exact (Hreq EBin ltac:(discriminate) Ht Ed).
  - exact (Hreq EU8 ltac:(discriminate) Ht Ed).
  - (* request16 *)
    unfold dec_request16 in Ed; cbv zeta in Ed.
    destruct (Nat.ltb_spec (length (t :: l)) 11) as [L|L]; [discriminate|]. 
    destruct (Nat.eqb_spec (length (t :: l) mod 2) 0) as [Ev|]; cbn [negb] in Ed; [|discriminate].
    cbn [length] in L, Ev.
    destruct (body9 l) as (id & n & rest & -> & Hid); [lia|]. rewrite at_ident in Ed by assumption.
    cbn [length] in Ed. rewrite app_length in *. cbn [length] in *.
    destruct (Nat.ltb_spec (S (length id + S (length rest))) (10 + b2n n + b2n n mod 2)); [discriminate|].
    destruct (split_at rest (b2n n)) as (p & q & -> & Hp); [lia|]. rewrite app_length in *.
    destruct (split_at q (b2n n mod 2)) as (pad & r & -> & Hpad); [lia|]. rewrite app_length in *.
    rewrite (tag_eq _ _ _ Ht), (flag_eq n p) by congruence. eexists. apply F_request16; try assumption.
    + pose proof (b2n_lt n). lia.
    + unfold padding. congruence.
    + unfold even_len. lia.
    + destruct p, r; cbn [length app] in *; try congruence. lia.
  - exact (Hrep EBin ltac:(discriminate) Ht Ed).
  - exact (Hrep EU8 ltac:(discriminate) Ht Ed).
  - (* reply16 *)
    unfold dec_reply16 in Ed. cbn [length] in Ed. destruct (Nat.ltb_spec (S (length l)) 10); [discriminate|].
    destruct (Nat.eqb_spec (S (length l) mod 2) 0) as [Ev|]; cbn [negb] in Ed; [|discriminate].
    destruct (body9 l) as (id & n & rest & -> & Hid); [lia|]. rewrite app_length in *. cbn [length] in *.
    rewrite (tag_eq _ _ _ Ht). eexists. apply F_reply16; [assumption|]. unfold even_len. lia.
Qed.

(* ----- theorems over ReadBytes ----- *)
Lemma dec_ok_iff b ok e o : dec b = (ok, e, o) -> (ok = true <-> In (b2N (at_ b 0)) known_types).
Proof.
  unfold dec. destruct (dec_switch (at_ b 0)) as [[d en]|] eqn:E.
  - destruct (d b). intros H; injection H as <- _ _. split; [intros _|reflexivity].
    apply dec_switch_inv in E. apply (in_map fst) in E. exact E.
  - intros H; injection H as <- _ _. split; [discriminate|]. intros K.
    apply dec_switch_none in E. contradiction.
Qed.

Lemma ReadBytes_frame m b :
  blank m -> 1 <= length b <= length (m_buf m) ->
  exists m' ok e, ReadBytes m b = Some (m', ok, e) /\
    (ok = true <-> In (b2N (nth 0 b x00)) known_types) /\
    (ok = true /\ e = None <-> exists c, frame b c) /\
    (forall c, frame b c -> shows (observe m') c).
Proof.
  intros Hbl [H1 H2]. destruct (dec b) as [[ok e] o] eqn:D.
  destruct (ReadBytes_dec m b ok e o H1 H2 Hbl D) as (m' & A1 & A2 & A3 & A4).
  exists m', ok, e. split; [assumption|]. split; [exact (dec_ok_iff _ _ _ _ D)|]. split.
  - split.
    + intros [-> ->]. apply (frame_sound b o); [|assumption]. destruct b; cbn in *; [lia|congruence].
    + intros [c F]. destruct (frame_complete _ _ F) as (o' & D' & _). rewrite D in D'.
      injection D' as -> -> _. auto.
  - intros c F. destruct (frame_complete _ _ F) as (o' & D' & S). rewrite D in D'.
    injection D' as -> -> ->. rewrite A2. exact S.
Qed.

Lemma shows_inj o c1 c2 : shows o c1 -> shows o c2 -> k_enc c1 = k_enc c2 -> k_conf c1 = None <-> k_conf c2 = None -> c1 = c2.
Proof.
  unfold shows. intros (A1 & A2 & _ & A3 & A4 & _ & A6) (B1 & B2 & _ & B3 & B4 & _ & B6) E C.
  destruct c1 as [t1 i1 n1 p1 e1 w1], c2 as [t2 i2 n2 p2 e2 w2]; cbn in *.
  assert (w1 = w2) as ->; [|f_equal; congruence].
  destruct w1 as [[]|], w2 as [[]|]; try (destruct C as [C1 C2]; (specialize (C1 eq_refl) || specialize (C2 eq_refl)); discriminate); [|reflexivity].
  cbn in *. f_equal. f_equal; try (intuition congruence). destruct A6 as (_ & _ & A & _), B6 as (_ & _ & B & _). lia.
Qed.

(* the wire format is unambiguous *)
Lemma frame_fun b c1 c2 : frame b c1 -> frame b c2 -> c1 = c2.
Proof.
  intros F1 F2. destruct (frame_complete _ _ F1) as (o & D1 & S1).
  destruct (frame_complete _ _ F2) as (o' & D2 & S2). rewrite D1 in D2. injection D2 as <-.
  assert (T : k_type c1 = k_type c2) by (destruct S1 as [<- _], S2 as [<- _]; reflexivity).
  assert (G : forall b c, frame b c ->
     k_enc c = match k_type c with 0 | 64 | 128 | 192 => EU8 | 65 | 129 | 193 => EU16 | _ => EBin end%N
     /\ (k_conf c = None <-> k_type c <> 23%N)).
  { intros b0 c F; destruct F; cbn; try (destruct e; try congruence; cbn); try (split; [reflexivity|]);
      try (split; intros; solve [discriminate | reflexivity | congruence]).
    split; [|split; [lia|reflexivity]].
    assert (t = 1 \/ t = 2 \/ t = 3 \/ t = 4 \/ t = 5)%N as [->|[->|[->|[->| ->]]]] by lia; reflexivity. }
  destruct (G _ _ F1) as [G1 G1'], (G _ _ F2) as [G2 G2'].
  apply (shows_inj o); try assumption.
  - rewrite G1, G2, T. reflexivity.
  - rewrite G1', G2', T. reflexivity.
Qed.
