(* The in-memory transport: buffers and what the log says about the writers. *)
From Coq Require Import List Arith NArith ZArith Lia Bool.
From Verif Require Import BaseBytes BaseConc ModelMessage ModelWrite ModelMemchan SpecWire SpecWrite SpecMemchan.
From Verif Require Import ProofMemchan.
Import ListNotations.
Open Scope nat_scope.

Lemma every_nil P : every P [].
Proof. intros l1 e l2 H. destruct l1; discriminate. Qed.
Lemma every_snoc (P : list event -> event -> Prop) l e : every P (l ++ [e]) <-> every P l /\ P l e.
Proof.
  split.
  - intros H. split; [|apply (H l e []); reflexivity].
    intros l1 x l2 ->. apply (H l1 x (l2 ++ [e])). rewrite <- app_assoc. reflexivity.
  - intros [H E] l1 x l2 Q. destruct l2 as [|y l2] using rev_ind.
    + apply app_inj_tail in Q as [<- <-]. exact E.
    + change (l1 ++ x :: l2 ++ [y]) with (l1 ++ (x :: l2) ++ [y]) in Q. rewrite app_assoc in Q. apply app_inj_tail in Q as [Q _]. eapply H; eauto.
Qed.
Lemma pending_snoc i l e : pending i (l ++ [e]) = pending1 i (pending i l) e.
Proof. unfold pending. rewrite fold_left_app. reflexivity. Qed.
(* the events of a writer other than writes *)
Definition of (i : nat) (e : event) : bool :=
  match e with LOpen j _ | LSend j _ _ _ | LWriter j _ _ => j =? i | _ => false end.
Definition mine (i : nat) (l : list event) : list event := filter (of i) l.
Global Arguments mine : simpl never.
Global Arguments pending : simpl never.
Lemma mine_snoc i l e : mine i (l ++ [e]) = mine i l ++ if of i e then [e] else [].
Proof. unfold mine. rewrite filter_app. reflexivity. Qed.
Lemma in_mine i e l : of i e = true -> In e l -> In e (mine i l).
Proof. intros A B. apply filter_In. auto. Qed.

Definition full (n : net) (k : sock) : bytes := slice (u_buf (n_sock n k)) (b_len (u_buf (n_sock n k))).
Definition wstory (i : nat) (k : sock) (n : net) (s : wstate) : Prop :=
  let l := n_log n in
  match s with
  | WGet => mine i l = []
  | WOpen => mine i l = [LOpen i k] /\
      (u_blk (n_sock n k) = None -> full n k = pending i l) /\ (u_blk (n_sock n k) <> None -> pending i l = [])
  | WFlush | WSend | WBlock => mine i l = [LOpen i k] /\ full n k = pending i l /\ pending i l <> []
  | WSent | WParked => exists g, mine i l = [LOpen i k; LSend i k g (pending i l)] /\
      full n k = pending i l /\ pending i l <> []
  | WReset WrClosed => mine i l = [LOpen i k] /\ pending i l <> []
  | WReset _ => exists g, mine i l = [LOpen i k; LSend i k g (pending i l)] /\ pending i l <> []
  | WDone WrDisconnected => mine i l = [LWriter i k WrDisconnected]
  | WDone WrEmpty => mine i l = [LOpen i k; LWriter i k WrEmpty]
  | WDone WrClosed => mine i l = [LOpen i k; LWriter i k WrClosed]
  | WDone r => exists g b, mine i l = [LOpen i k; LSend i k g b; LWriter i k r]
  end.
Definition story (i : nat) (n : net) (t : thread) : Prop :=
  match t with TWrite k s => wstory i k n s | _ => mine i (n_log n) = [] end.
Record books (size : nat) (n : net) (ts : list thread) : Prop := {
  K_size : forall k, length (b_data (u_buf (n_sock n k))) = size /\ b_len (u_buf (n_sock n k)) <= size;
  K_zero : forall k, u_wlk (n_sock n k) = None -> u_blk (n_sock n k) = None -> b_len (u_buf (n_sock n k)) = 0;
  K_story : forall i t, nth_error ts i = Some t -> story i n t;
  K_none : forall i, length ts <= i -> mine i (n_log n) = [];
  K_log : every (writers size) (n_log n) }.

(* ----- reading the books ----- *)
Section Books.
Variables (size : nat) (n : net) (ts : list thread).
Hypotheses (L : locks n ts) (K : books size n ts).
Lemma owner j e : of j e = true -> In e (n_log n) -> exists t, nth_error ts j = Some t /\ In e (mine j (n_log n)).
Proof.
  intros O I. pose proof (in_mine _ _ _ O I) as M. destruct (nth_error ts j) as [t|] eqn:E; [eauto|].
  apply nth_error_None in E. rewrite (K_none _ _ _ K _ E) in M. destruct M.
Qed.
Ltac story_of E :=
  let S := fresh "S" in pose proof (K_story _ _ _ K _ _ E) as S;
  let k := fresh "k" in let s := fresh "s" in
  match type of E with _ = Some ?t => destruct t as [k s|? ? ? ?|? ?|? ?|?] end;
  [|cbn in S; rewrite S in *; contradiction..];
  destruct s as [| | | | | | |[]|[]]; cbn in S;
  repeat match goal with S : exists _, _ |- _ => destruct S as [? S] end;
  repeat match goal with S : _ /\ _ |- _ => destruct S as [S ?] end;
  match goal with I : In _ (mine _ _) |- _ => rewrite S in I; cbn in I;
    repeat match type of I with _ \/ _ => destruct I as [I|I] end; try contradiction; try discriminate I end.
Lemma find_writer j k r : In (LWriter j k r) (n_log n) -> nth_error ts j = Some (TWrite k (WDone r)).
Proof.
  intros I. destruct (owner j (LWriter j k r) (Nat.eqb_refl j) I) as (t & E & M). story_of E; congruence.
Qed.
Lemma find_open j k : In (LOpen j k) (n_log n) -> exists s, nth_error ts j = Some (TWrite k s) /\ s <> WGet.
Proof.
  intros I. destruct (owner j (LOpen j k) (Nat.eqb_refl j) I) as (t & E & M).
  story_of E; injection M as <-; eexists; (split; [eassumption|discriminate]).
Qed.
Lemma find_send j k g b : In (LSend j k g b) (n_log n) -> exists s, nth_error ts j = Some (TWrite k s) /\
  match s with WSent | WParked | WReset (WrRead | WrSockClosed) | WDone (WrRead | WrSockClosed) => True | _ => False end.
Proof.
  intros I. destruct (owner j (LSend j k g b) (Nat.eqb_refl j) I) as (t & E & M).
  story_of E; injection M as <- _ _; destruct L as [_ _ _ _ X];
    try (destruct (X _ _ _ E) as [?|[?|?]]; discriminate);
    eexists; (split; [eassumption|exact I0 || exact Logic.I]).
Qed.
Lemma find_active j k : active j k (n_log n) -> hw k (match nth_error ts j with Some t => t | None => TDown ShDone end) = true \/
  hb k (match nth_error ts j with Some t => t | None => TDown ShDone end) = true.
Proof.
  intros [I N]. destruct (find_open _ _ I) as (s & E & D). rewrite E. destruct s as [| | | | | | |r|r]; cbn; rewrite ?sock_eqb_refl; auto; try congruence.
  pose proof (K_story _ _ _ K _ _ E) as S. exfalso. apply (N r). cbn in S.
  assert (M : In (LWriter j k r) (mine j (n_log n))).
  { destruct r; repeat match goal with S : exists _, _ |- _ => destruct S as [? S] end; rewrite S; cbn; auto. }
  apply filter_In in M as [M _]. exact M.
Qed.
Lemma alone i k : u_wlk (n_sock n k) = Some i -> (u_blk (n_sock n k) = None \/ u_blk (n_sock n k) = Some i) ->
  forall j, active j k (n_log n) -> j = i.
Proof.
  intros W B j A. destruct L as [Lw Lb _ _ _]. destruct (find_active _ _ A) as [H|H].
  - destruct (nth_error ts j) as [t|] eqn:E; [|discriminate].
    assert (X : u_wlk (n_sock n k) = Some j) by (apply (Lw k j); eauto). congruence.
  - destruct (nth_error ts j) as [t|] eqn:E; [|discriminate].
    assert (X : u_blk (n_sock n k) = Some j) by (apply (Lb k j); eauto). destruct B; congruence.
Qed.
Lemma holder_w i k s : nth_error ts i = Some (TWrite k s) -> hw k (TWrite k s) = true -> u_wlk (n_sock n k) = Some i.
Proof. intros. apply (L_w _ _ L k i). eauto. Qed.
Lemma holder_b i k s : nth_error ts i = Some (TWrite k s) -> hb k (TWrite k s) = true -> u_blk (n_sock n k) = Some i.
Proof. intros. apply (L_b _ _ L k i). eauto. Qed.
Lemma wedged j k : In (LWriter j k WrEmpty) (n_log n) ->
  u_wlk (n_sock n k) = Some j /\ u_blk (n_sock n k) = Some j /\ nth_error ts j = Some (TWrite k (WDone WrEmpty)).
Proof.
  intros I. pose proof (find_writer _ _ _ I) as E. split; [|split; [|assumption]].
  - eapply holder_w; [eassumption|cbn; apply sock_eqb_refl].
  - eapply holder_b; [eassumption|cbn; apply sock_eqb_refl].
Qed.
End Books.

(* ----- steps keep the books ----- *)
Ltac tcases T k s n1 s1 H H0 := inversion T as [k s n1 s1 H|k ?m ?d s n1 s1 ?w1 H|?t1 k s n1 s1 ?w1 H H0|?p s n1 s1 H|s n1 s1 H]; subst.
Lemma neb x i : x <> i -> (i =? x) = false.
Proof. intros. apply Nat.eqb_neq. auto. Qed.
Lemma trel_log ts i n t n' t' w x : trel ts i n t n' t' w -> x <> i ->
  mine x (n_log n') = mine x (n_log n) /\ pending x (n_log n') = pending x (n_log n).
Proof.
  intros T X. apply neb in X.
  tcases T k s n1 s1 H H0.
  - inversion H; subst; netu; netc; rewrite ?mine_snoc, ?pending_snoc; cbn [of pending1]; rewrite ?X, ?app_nil_r; auto.
  - inversion H; subst; netu; netc; rewrite ?mine_snoc, ?pending_snoc; cbn [of pending1]; rewrite ?X, ?app_nil_r; auto.
  - assert (Q : n_log n1 = n_log n) by (destruct H0; reflexivity).
    destruct t as [| ? ? ? []| | |[]]; try discriminate H; destruct s1; cbn [end_close]; rewrite ?Q; auto.
    netu; netc. rewrite Q, ?mine_snoc, ?pending_snoc; cbn [of pending1]; rewrite ?X, ?app_nil_r; auto.
  - inversion H; subst; netu; netc; rewrite ?mine_snoc, ?pending_snoc; cbn [of pending1]; rewrite ?X, ?app_nil_r; auto.
  - inversion H; subst; netu; netc; rewrite ?mine_snoc, ?pending_snoc; cbn [of pending1]; rewrite ?X, ?app_nil_r; auto.
Qed.
(* only writers touch buffers and their locks *)
Lemma trel_buf ts i n t n' t' w k : trel ts i n t n' t' w -> (forall s, t <> TWrite k s) ->
  u_buf (n_sock n' k) = u_buf (n_sock n k) /\ u_blk (n_sock n' k) = u_blk (n_sock n k) /\
  u_wlk (n_sock n' k) = u_wlk (n_sock n k).
Proof.
  intros T X. tcases T k1 s n1 s1 H H0.
  - assert (D : sock_eqb k k1 = false) by (destruct (sock_eqb_spec k k1) as [->|]; [exfalso; eapply X; reflexivity|reflexivity]).
    inversion H; subst; netu; netc; rewrite ?D; auto; caseq; netc; auto.
  - inversion H; subst; netu; netc; caseq; netc; auto.
  - assert (Q : n_sock n1 = n_sock n) by (destruct H0; reflexivity).
    destruct t as [| ? ? ? []| | |[]]; try discriminate H; destruct s1; cbn [end_close]; rewrite ?Q; auto.
    netu; netc. rewrite Q. caseq; netc; auto.
  - inversion H; subst; netu; netc; caseq; netc; auto.
  - inversion H; subst; netu; netc; auto.
Qed.
Lemma buf_write_spec b p b' ok size : length (b_data b) = size -> b_len b <= size -> buf_write b p = (b', ok) ->
  length (b_data b') = size /\ b_len b' <= size /\ ok = (b_len b + length p <=? size) /\
  slice b' (b_len b') = if ok then slice b (b_len b) ++ p else [].
Proof.
  unfold buf_write, slice, overwrite. intros D B H.
  destruct (Nat.ltb_spec (length (b_data b) - b_len b) (length p)) as [Q|Q]; injection H as <- <-; cbn.
  - repeat split; auto; lia.
  - repeat split.
    + rewrite !app_length, firstn_length, skipn_length. lia.
    + lia.
    + symmetry. apply Nat.leb_le. lia.
    + rewrite firstn_app, firstn_length, Nat.min_l by lia. rewrite firstn_firstn, Nat.min_r by lia. f_equal.
      replace (b_len b + length p - b_len b) with (length p) by lia.
      rewrite firstn_app, Nat.sub_diag, firstn_all, firstn_O. apply app_nil_r.
Qed.
Lemma full_length size n k : length (b_data (u_buf (n_sock n k))) = size -> b_len (u_buf (n_sock n k)) <= size ->
  length (full n k) = b_len (u_buf (n_sock n k)).
Proof. intros D B. unfold full, slice. rewrite firstn_length. lia. Qed.

Lemma story_other ts i n t n' t' w x u : locks n ts -> nth_error ts i = Some t -> trel ts i n t n' t' w ->
  x <> i -> nth_error ts x = Some u -> story x n u -> story x n' u.
Proof.
  intros L I T X U S. destruct (trel_log _ _ _ _ _ _ _ x T X) as [M P].
  destruct u as [k s| | | |]; cbn in *; try congruence.
  assert (C : (forall s0, t <> TWrite k s0) \/ exists s0, t = TWrite k s0).
  { destruct t as [k0 s0| | | |]; try (left; discriminate). destruct (sock_eqb_spec k0 k) as [->|]; [right|left]; [eauto|congruence]. }
  destruct C as [C|[s0 ->]].
  - destruct (trel_buf _ _ _ _ _ _ _ k T C) as (B1 & B2 & _).
    destruct s as [| | | | | | |[]|[]]; cbn in *; unfold full in *; rewrite M, ?P, ?B1, ?B2; exact S.
  - assert (W : forall s1, hw k (TWrite k s) = true -> s0 = s1 -> hw k (TWrite k s1) = false).
    { intros s1 A <-. destruct (hw k (TWrite k s0)) eqn:E; [|reflexivity].
      pose proof (holder_w _ _ L _ _ _ U A). pose proof (holder_w _ _ L _ _ _ I E). congruence. }
    assert (B : forall s1, hb k (TWrite k s) = true -> s0 = s1 -> hb k (TWrite k s1) = false).
    { intros s1 A <-. destruct (hb k (TWrite k s0)) eqn:E; [|reflexivity].
      pose proof (holder_b _ _ L _ _ _ U A). pose proof (holder_b _ _ L _ _ _ I E). congruence. }
    assert (NB : hb k (TWrite k s0) = true -> u_blk (n_sock n k) = Some i) by (intros; eapply holder_b; eauto).
    inversion T as [k2 s2 n1 s1 H| |t1 k2 s2 n1 s1 w1 H H0| |]; subst; [|discriminate H].
    destruct s as [| | | | | | |[]|[]]; cbn in S |- *; cbn [hw hb] in W, B; rewrite sock_eqb_refl in *;
      rewrite M, ?P; try exact S;
      inversion H; subst; cbn in NB;
      try (match type of W with forall s1, true = true -> ?x = s1 -> _ => specialize (W x eq_refl eq_refl); cbn in W; rewrite ?sock_eqb_refl in W; discriminate W end);
      try (match type of B with forall s1, true = true -> ?x = s1 -> _ => specialize (B x eq_refl eq_refl); cbn in B; rewrite ?sock_eqb_refl in B; discriminate B end);
      unfold full in *; netu; netc; rewrite ?sock_eqb_refl, ?remote_ne, ?remote_ne'; netc; try exact S.
    all: rewrite sock_eqb_refl in NB; specialize (NB eq_refl).
    all: destruct S as (S1 & S2 & S3); repeat split; auto; try congruence; intros; cbn [slice b_data b_len firstn]; symmetry; apply S3; congruence.
Qed.
Lemma story_own size ts i n t n' t' w : locks n ts -> books size n ts -> nth_error ts i = Some t ->
  trel ts i n t n' t' w -> story i n' t'.
Proof.
  intros L K I T. pose proof (K_story _ _ _ K _ _ I) as S.
  tcases T k s n1 s1 H H0.
  - pose proof (K_size _ _ _ K k) as DB. pose proof (full_length _ _ _ (proj1 DB) (proj2 DB)) as FL.
    pose proof (holder_w _ _ L _ _ _ I) as W. cbn in W.
    inversion H; subst; cbn in S; cbn; unfold full in *; netu; netc; rewrite ?mine_snoc, ?pending_snoc; cbn [of pending1];
      rewrite ?Nat.eqb_refl, ?sock_eqb_refl, ?remote_ne, ?remote_ne' in *; netc; rewrite ?app_nil_r; cbn [app];
      repeat match type of S with _ /\ _ => let S1 := fresh S in destruct S as [S1 S] end;
      repeat match goal with H : mine _ _ = _ |- _ => rewrite H end; cbn [app]; try (repeat split; auto; fail).
    + split; [reflexivity|]. split; [|reflexivity]. intros F. rewrite (K_zero _ _ _ K) by assumption. reflexivity.
    + destruct (buf_write_spec _ _ _ _ _ (proj1 DB) (proj2 DB) H1) as (D' & B' & O & F).
      split; [reflexivity|]. split; [|congruence]. intros _. rewrite F. destruct ok; [|reflexivity]. f_equal. auto.
    + assert (Q : slice (u_buf (n_sock n k)) (b_len (u_buf (n_sock n k))) = pending i (n_log n)) by auto.
      split; [reflexivity|]. split; [assumption|]. intros E. rewrite <- Q in E. rewrite E in FL. cbn in FL. congruence.
    + exists (u_gen (n_sock n (remote k))). match goal with Q : slice _ _ = pending _ _ |- _ => rewrite Q end. auto.
    + exists (u_gen (n_sock n (remote k))). match goal with Q : slice _ _ = pending _ _ |- _ => rewrite Q end. auto.
    + destruct (L_x _ _ L _ _ _ I) as [->|[->| ->]]; cbn in *;
        repeat match goal with S : _ /\ _ |- _ => destruct S | S : exists _, _ |- _ => destruct S end;
        repeat match goal with H : mine _ _ = _ |- _ => rewrite H end; cbn [app]; eauto.
  - inversion H; subst; cbn in S |- *; netu; netc; rewrite ?mine_snoc; cbn [of]; rewrite ?app_nil_r; exact S.
  - assert (Q : n_log n1 = n_log n) by (destruct H0; reflexivity).
    destruct t as [| ? ? ? []| | |[]]; try discriminate H; destruct s1; cbn in S |- *; netu; netc;
      rewrite ?Q, ?mine_snoc; cbn [of]; rewrite ?app_nil_r; exact S.
  - inversion H; subst; cbn in S |- *; netu; netc; rewrite ?mine_snoc; cbn [of]; rewrite ?app_nil_r; exact S.
  - inversion H; subst; cbn in S |- *; netu; netc; rewrite ?mine_snoc; cbn [of]; rewrite ?app_nil_r; exact S.
Qed.
Lemma size_step size ts i n t n' t' w : books size n ts ->
  trel ts i n t n' t' w -> forall k, length (b_data (u_buf (n_sock n' k))) = size /\ b_len (u_buf (n_sock n' k)) <= size.
Proof.
  intros K T k. pose proof (K_size _ _ _ K k) as DB.
  destruct (match t with TWrite k' _ => sock_eqb k' k | _ => false end) eqn:E.
  - destruct t as [k' s| | | |]; try discriminate. destruct (sock_eqb_spec k' k) as [->|]; [|discriminate].
    inversion T as [k2 s2 n1 s1 H| |t1 k2 s2 n1 s1 w1 H H0| |]; subst; [|discriminate H].
    inversion H; subst; netu; netc; caseq; netc; auto.
    + match goal with W : buf_write _ _ = _ |- _ => destruct (buf_write_spec _ _ _ _ _ (proj1 DB) (proj2 DB) W) as (D' & B' & _); auto end.
    + cbn. split; [apply DB|lia].
  - destruct (trel_buf _ _ _ _ _ _ _ k T) as (-> & _); [|auto]. intros s ->. rewrite sock_eqb_refl in E. discriminate.
Qed.
Lemma zero_step size ts i n t n' t' w : locks n ts -> books size n ts -> nth_error ts i = Some t ->
  trel ts i n t n' t' w -> forall k, u_wlk (n_sock n' k) = None -> u_blk (n_sock n' k) = None -> b_len (u_buf (n_sock n' k)) = 0.
Proof.
  intros L K I T k. pose proof (K_zero _ _ _ K k) as Z.
  destruct (match t with TWrite k' _ => sock_eqb k' k | _ => false end) eqn:E.
  - destruct t as [k' s| | | |]; try discriminate. destruct (sock_eqb_spec k' k) as [->|]; [|discriminate].
    pose proof (holder_w _ _ L _ _ _ I) as W. cbn in W. pose proof (holder_b _ _ L _ _ _ I) as X. cbn in X.
    inversion T as [k2 s2 n1 s1 H| |t1 k2 s2 n1 s1 w1 H H0| |]; subst; [|discriminate H].
    inversion H; subst; cbn in W, X; rewrite ?sock_eqb_refl in *; netu; netc; caseq; netc; auto; intros;
      try (rewrite W in * by reflexivity; discriminate); try (rewrite X in * by reflexivity; discriminate); try discriminate.
  - destruct (trel_buf _ _ _ _ _ _ _ k T) as (-> & -> & ->); [|auto]. intros s ->. rewrite sock_eqb_refl in E. discriminate.
Qed.
Lemma story_active size n ts i k s : books size n ts -> nth_error ts i = Some (TWrite k s) ->
  s <> WGet -> (forall r, s <> WDone r) -> active i k (n_log n).
Proof.
  intros K I A B. pose proof (K_story _ _ _ K _ _ I) as S.
  assert (In (LOpen i k) (mine i (n_log n)) /\ forall r, ~ In (LWriter i k r) (mine i (n_log n))) as [O N].
  { destruct s as [| | | | | | |[]|r]; try congruence; try (exfalso; eapply B; reflexivity); cbn in S;
      repeat match goal with S : _ /\ _ |- _ => destruct S | S : exists _, _ |- _ => destruct S end;
      repeat match goal with H : mine _ _ = _ |- _ => rewrite H end; cbn; (split; [auto|]); intuition discriminate. }
  split; [apply filter_In in O as [O _]; exact O|]. intros r R. apply (N r). apply in_mine; [apply Nat.eqb_refl|exact R].
Qed.
Lemma log_step size ts i n t n' t' w : locks n ts -> books size n ts -> nth_error ts i = Some t ->
  trel ts i n t n' t' w -> every (writers size) (n_log n').
Proof.
  intros L K I T. pose proof (K_log _ _ _ K) as E. pose proof (K_story _ _ _ K _ _ I) as S.
  assert (NW : forall j k, In (LWriter j k WrEmpty) (n_log n) ->
    u_wlk (n_sock n k) = Some j /\ u_blk (n_sock n k) = Some j /\ nth_error ts j = Some (TWrite k (WDone WrEmpty))).
  { intros j k. eapply wedged; eauto. }
  tcases T k s n1 s1 H H0.
  - pose proof (K_size _ _ _ K k) as DB. pose proof (full_length _ _ _ (proj1 DB) (proj2 DB)) as FL.
    pose proof (holder_w _ _ L _ _ _ I) as W. pose proof (holder_b _ _ L _ _ _ I) as X. cbn in W, X.
    assert (NS : match s with WSent | WParked | WReset (WrRead | WrSockClosed) | WDone (WrRead | WrSockClosed) => True
                 | _ => forall k' g b, ~ In (LSend i k' g b) (n_log n) end).
    { destruct s as [| | | | | | |[]|[]]; auto; intros k' g b Y; eapply find_send in Y as (s' & Y & Z); eauto; rewrite I in Y; injection Y as _ <-; exact Z. }
    assert (AC : s <> WGet -> (forall r, s <> WDone r) -> active i k (n_log n)) by (eapply story_active; eauto).
    inversion H; subst; netu; netc; try assumption; apply every_snoc; (split; [assumption|]); cbn [writers];
      cbn in W, X, S; rewrite ?sock_eqb_refl in W; rewrite ?sock_eqb_refl in X.
    + intros j k' r. split; [|split].
      * intros Y. eapply find_open in Y as (s' & Y & Z); eauto. rewrite I in Y. injection Y as _ <-. congruence.
      * intros Y. eapply find_writer in Y; eauto. congruence.
      * intros Y. apply NW in Y. destruct Y. congruence.
    + split; [intros j Y; apply NW in Y; destruct Y; congruence|].
      intros k' Y. eapply find_open in Y as (s' & Y & Z); eauto. rewrite I in Y. injection Y as _ <-. congruence.
    + destruct S as (S1 & S2 & S3). split; [apply AC; discriminate|]. split; [eapply alone; eauto|].
      destruct (buf_write_spec _ _ _ _ _ (proj1 DB) (proj2 DB) H1) as (D' & B' & O & F).
      rewrite O, <- (S2 H0), FL. reflexivity.
    + destruct S as (S1 & S2 & S3). split; [intros j Y; apply NW in Y; destruct Y as (? & ? & ?); congruence|].
      split; [apply AC; discriminate|]. rewrite <- (S2 H0). unfold full. rewrite H1. reflexivity.
    + destruct S as (S1 & S2 & S3). split; [apply AC; discriminate|]. split; [eapply alone; eauto|]. split; [exact NS|].
      split; [exact S2|]. unfold full in S2. rewrite S2. exact S3.
    + destruct S as (S1 & S2 & S3). split; [apply AC; discriminate|]. split; [eapply alone; eauto|]. split; [exact NS|].
      split; [exact S2|]. unfold full in S2. rewrite S2. exact S3.
    + specialize (X eq_refl). split.
      { intros j Y. apply NW in Y. destruct Y as (? & Q & ?). rewrite X in Q. injection Q as <-. congruence. }
      assert (A : active i k (n_log n)) by (apply AC; discriminate).
      destruct (L_x _ _ L _ _ _ I) as [->|[->| ->]]; cbn in S.
      * destruct S. auto.
      * destruct S as (g & S & _). split; [exact A|]. exists g.
        assert (Q : In (LSend i k g (pending i (n_log n))) (mine i (n_log n))) by (rewrite S; cbn; auto).
        apply filter_In in Q as [Q _]. exact Q.
      * destruct S as (g & S & _). split; [exact A|]. exists g.
        assert (Q : In (LSend i k g (pending i (n_log n))) (mine i (n_log n))) by (rewrite S; cbn; auto).
        apply filter_In in Q as [Q _]. exact Q.
  - inversion H; subst; netu; netc; try assumption; apply every_snoc; (split; [assumption|exact Logic.I]).
  - assert (Q : n_log n1 = n_log n) by (destruct H0; reflexivity).
    destruct t as [| ? ? ? []| | |[]]; try discriminate H; destruct s1; cbn [end_close]; netu; netc; rewrite ?Q; try assumption.
    apply every_snoc; (split; [assumption|exact Logic.I]).
  - inversion H; subst; netu; netc; try assumption; repeat (apply every_snoc; split); try assumption; exact Logic.I.
  - inversion H; subst; netu; netc; try assumption; apply every_snoc; (split; [assumption|exact Logic.I]).
Qed.
Lemma books_step size ts i n t n' t' w : locks n ts -> books size n ts -> nth_error ts i = Some t ->
  trel ts i n t n' t' w -> books size n' (set_nth ts i t').
Proof.
  intros L K I T. constructor.
  - eapply size_step; eauto.
  - eapply zero_step; eauto.
  - intros x u U. apply set_nth_lookup in U as [[<- ->]|[D U]].
    + eapply story_own; eauto.
    + apply (story_other _ _ _ _ _ _ _ x u L I T); auto. eapply K_story; eauto.
  - intros x X. rewrite set_nth_length in X.
    assert (x <> i) by (intros ->; apply nth_error_None in X; congruence).
    rewrite (proj1 (trel_log _ _ _ _ _ _ _ _ T H)). eapply K_none; eauto.
  - eapply log_step; eauto.
Qed.
Lemma books_sys size s e s' : locks (s_net s) (s_ts s) -> books size (s_net s) (s_ts s) -> srel_ s e s' ->
  books size (s_net s') (s_ts s').
Proof.
  intros L K H. destruct H as [e t B|i ch t n' t' I T|i ch t n' t' j v k I T D V J]; cbn.
  - destruct K as [K1 K2 K3 K4 K5]. constructor; auto.
    + intros x u U. rewrite nth_error_snoc in U. destruct (x <? _); [eauto|].
      destruct (Nat.eqb_spec x (length (s_ts s))) as [->|]; [|discriminate]. injection U as <-.
      destruct e; try discriminate B; injection B as <-; cbn; apply K4; lia.
    + intros x X. rewrite app_length in X. cbn in X. apply K4. lia.
  - eapply books_step; eauto.
  - pose proof (books_step _ _ _ _ _ _ _ _ L K I T) as [K1 K2 K3 K4 K5].
    pose proof (locks_step _ _ _ _ _ _ _ L I T) as L'.
    assert (J' : nth_error (set_nth (s_ts s) i t') j = Some (TWrite k WParked)) by (rewrite set_nth_ne by auto; exact J).
    pose proof (holder_b _ _ L' _ _ _ J') as HB. cbn in HB. rewrite sock_eqb_refl in HB. specialize (HB eq_refl).
    constructor.
    + intros k0. specialize (K1 k0). netu; netc. caseq; netc; auto.
    + intros k0. specialize (K2 k0). netu; netc. caseq; netc; auto. intros. congruence.
    + intros x u U. apply set_nth_lookup in U as [[<- ->]|[Dx U]].
      * pose proof (K3 _ _ J') as S. cbn in S. destruct S as (g & S1 & S2 & S3). destruct V as [-> | ->]; cbn; exists g; auto.
      * pose proof (K3 _ _ U) as S. destruct u as [k0 s0| | | |]; cbn in S |- *; try assumption.
        destruct s0 as [| | | | | | |[]|[]]; cbn in S |- *; unfold full in *; netu; netc; caseq; netc; exact S.
    + intros x X. rewrite set_nth_length in X. apply K4. exact X.
    + exact K5.
Qed.
Lemma books_new size : books size (new_net size) [].
Proof.
  constructor; cbn.
  - intros _. rewrite repeat_length. lia.
  - reflexivity.
  - intros [|]; discriminate.
  - reflexivity.
  - apply every_nil.
Qed.
Lemma mreach_ind_ size ok (P : sys -> Prop) : P (new_sys size) ->
  (forall s e s', mreach size ok s -> P s -> n_crashed (s_net s) = false -> srel_ s e s' -> ok s' -> P s') ->
  forall s, mreach size ok s -> P s.
Proof.
  intros A B s H. induction H as [|s e s' H IH E O]; [exact A|].
  apply mstep_rel in E as [C E]. eapply B; eauto.
Qed.
Theorem invariants size ok s : mreach size ok s -> locks (s_net s) (s_ts s) /\ books size (s_net s) (s_ts s).
Proof.
  revert s. apply (mreach_ind_ size ok (fun s => locks (s_net s) (s_ts s) /\ books size (s_net s) (s_ts s))).
  - split; [apply locks_new|apply books_new].
  - intros s0 e s' _ [L K] _ E _. split; [eapply locks_sys; eauto|eapply books_sys; eauto].
Qed.
Lemma writers_all size ok s : mreach size ok s -> every (writers size) (mlog s).
Proof. intros H. apply invariants in H as [_ K]. apply (K_log _ _ _ K). Qed.
