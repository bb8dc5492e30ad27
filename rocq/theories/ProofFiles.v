(* Proofs about the default session manager. *)
From Coq Require Import List Arith NArith ZArith Lia Bool.
From Verif Require Import BaseBytes BaseConc ModelMessage ModelPath ModelFiles SpecFiles ProofPath.
Import ListNotations.
Open Scope nat_scope.

Lemma loc_eqb_spec a b : reflect (a = b) (loc_eqb a b).
Proof.
  revert b. induction a as [|x a IH]; intros [|y b]; cbn; try (constructor; congruence).
  destruct (bytes_eqb_spec x y) as [->|]; cbn; [|constructor; congruence]. destruct (IH b) as [->|]; constructor; congruence.
Qed.
#[global] Arguments loc_eqb : simpl never.
Lemma bytes_eqb_refl a : bytes_eqb a a = true.
Proof. destruct (bytes_eqb_spec a a); congruence. Qed.
Lemma bytes_eqb_ne a b : a <> b -> bytes_eqb a b = false.
Proof. destruct (bytes_eqb_spec a b); congruence. Qed.
Lemma splice_end c b : splice c (length c) b = c ++ b.
Proof.
  unfold splice. rewrite firstn_all, Nat.sub_diag. cbn [repeat app].
  rewrite skipn_all2 by lia. rewrite app_nil_r. reflexivity.
Qed.

(* ----- isolation ----- *)
Inductive only {A} (e : env) (L : loc) : (nat -> Prop) -> prog A -> Prop :=
| O_ret own a : only e L own (Ret a)
| O_stat own p k : locate (e_cwd e) p = L -> (forall st, only e L own (k st)) -> only e L own (Stat p k)
| O_read own p k : locate (e_cwd e) p = L -> (forall r, only e L own (k r)) -> only e L own (ReadFile p k)
| O_open own p k : locate (e_cwd e) p = L -> only e L own (k None) -> (forall n, only e L (fun m => m = n \/ own m) (k (Some n))) ->
    only e L own (OpenTrunc p k)
| O_write (own : nat -> Prop) n off data k : own n -> (forall b, only e L own (k b)) -> only e L own (WriteAt n off data k)
| O_remove own p k : locate (e_cwd e) p = L -> (forall b, only e L own (k b)) -> only e L own (Remove p k).
Definition safe (s : fs) (L : loc) (own : nat -> Prop) : Prop :=
  forall n, own n -> n < f_next s /\ forall l, f_dir s l = Some n -> l = L.

Lemma code_only {I} (c : codec I) e dir h own : only e (file_of (e_cwd e) dir (hook_key h)) own (code c dir h).
Proof.
  destruct h as [k cr lo i|k now|k]; cbn [code hook_key].
  - unfold OnSessionCreated, Save. destruct (marshal c _); [|apply O_ret]. unfold WriteFile. apply O_open; [reflexivity|apply O_ret|].
    intros n. apply O_write; [left; reflexivity|]. intros x. apply O_ret.
  - unfold OnSessionLookup. apply O_stat; [reflexivity|]. intros [| |]; try apply O_ret. unfold Parse. apply O_read; [reflexivity|].
    intros r. destruct (match r with Some b => unmarshal c b | None => None end) as [f|]; [|apply O_ret].
    unfold Save. destruct (marshal c _); [|apply O_ret]. unfold WriteFile. apply O_open; [reflexivity|apply O_ret|].
    intros n. apply O_write; [left; reflexivity|]. intros [|]; apply O_ret.
  - unfold OnSessionClosed. apply O_remove; [reflexivity|]. intros; apply O_ret.
Qed.

Lemma step_isolated {A} e s (pr : prog A) h s' pr' L own : wf s -> only e L own pr -> safe s L own -> step e s pr h = Some (s', pr') ->
  wf s' /\ (forall l, l <> L -> contents s' l = contents s l) /\
  (exists own', only e L own' pr' /\ safe s' L own') /\
  (forall L2 own2, safe s L2 own2 -> safe s' L2 own2).
Proof.
  intros W O F E. destruct O as [own a|own p k HL K|own p k HL K|own p k HL K0 K|own n off data k HN K|own p k HL K]; cbn in E.
  - discriminate.
  - destruct h; injection E as E1 E2; subst; (split; [exact W|]; split; [reflexivity|]; split; [eauto|auto]).
  - destruct h; injection E as E1 E2; subst; (split; [exact W|]; split; [reflexivity|]; split; [eauto|auto]).
  - rewrite HL in E. destruct h; [|injection E as E1 E2; subst; (split; [exact W|]; split; [reflexivity|]; split; [eauto|auto])].
    destruct (fine e p); [|injection E as E1 E2; subst; (split; [exact W|]; split; [reflexivity|]; split; [eauto|auto])].
    destruct (f_dir s L) as [m|] eqn:D; injection E as E1 E2; subst s' pr'.
    + split; [exact W|]. split; [|split].
      * intros l NL. unfold contents; cbn. destruct (f_dir s l) as [x|] eqn:Dl; [|reflexivity].
        destruct (Nat.eqb_spec x m) as [->|]; [|reflexivity]. exfalso. apply NL. apply (proj2 W l L m Dl D).
      * eexists. split; [apply K|]. intros x [->|X]; [|apply (F x X)]. cbn. split; [apply (proj1 W _ _ D)|].
        intros l Dl. apply (proj2 W l L m Dl D).
      * intros L2 own2 S x X. apply (S x X).
    + split; [|split; [|split]].
      * split; cbn.
        -- intros l x. destruct (loc_eqb_spec l L); [intros [= <-]; lia|]. intros Dl. pose proof (proj1 W _ _ Dl). lia.
        -- intros l1 l2 x. destruct (loc_eqb_spec l1 L) as [->|]; destruct (loc_eqb_spec l2 L) as [->|]; intros D1 D2.
           ++ reflexivity.
           ++ injection D1 as <-. pose proof (proj1 W _ _ D2). lia.
           ++ injection D2 as <-. pose proof (proj1 W _ _ D1). lia.
           ++ apply (proj2 W _ _ _ D1 D2).
      * intros l NL. unfold contents; cbn. destruct (loc_eqb_spec l L); [contradiction|].
        destruct (f_dir s l) as [x|] eqn:Dl; [|reflexivity]. pose proof (proj1 W _ _ Dl).
        destruct (Nat.eqb_spec x (f_next s)); [lia|reflexivity].
      * eexists. split; [apply K|]. intros x [->|X]; cbn.
        -- split; [lia|]. intros l. destruct (loc_eqb_spec l L); [auto|]. intros Dl. pose proof (proj1 W _ _ Dl). lia.
        -- destruct (F x X) as [F1 F2]. split; [lia|]. intros l. destruct (loc_eqb_spec l L); [auto|]. apply F2.
      * intros L2 own2 S x X. cbn. destruct (S x X) as [S1 S2]. split; [lia|]. intros l. destruct (loc_eqb_spec l L) as [->|]; [|apply S2].
        intros [= <-]. lia.
  - destruct h; [|injection E as E1 E2; subst; (split; [exact W|]; split; [reflexivity|]; split; [eauto|auto])].
    destruct data as [|x data]; [injection E as E1 E2; subst; (split; [exact W|]; split; [reflexivity|]; split; [eauto|auto])|].
    injection E as E1 E2. subst s' pr'. split; [exact W|]. split; [|split].
    + intros l NL. unfold contents; cbn. destruct (f_dir s l) as [y|] eqn:Dl; [|reflexivity].
      destruct (Nat.eqb_spec y n) as [->|]; [|reflexivity]. exfalso. apply NL. apply (proj2 (F n HN) l Dl).
    + exists own. split; [apply O_write; assumption|]. intros y Y. apply (F y Y).
    + intros L2 own2 S y Y. apply (S y Y).
  - rewrite HL in E. destruct h; [|injection E as E1 E2; subst; (split; [exact W|]; split; [reflexivity|]; split; [eauto|auto])].
    destruct (fine e p); [|injection E as E1 E2; subst; (split; [exact W|]; split; [reflexivity|]; split; [eauto|auto])].
    destruct (f_dir s L) as [m|] eqn:D; [|injection E as E1 E2; subst; (split; [exact W|]; split; [reflexivity|]; split; [eauto|auto])].
    injection E as E1 E2. subst s' pr'.
    assert (X : forall L2 own2, safe s L2 own2 -> safe (set_dir s L None) L2 own2).
    { intros L2 own2 S x X. cbn. destruct (S x X) as [S1 S2]. split; [exact S1|]. intros l. destruct (loc_eqb_spec l L); [discriminate|apply S2]. }
    split; [|split; [|split]].
    + split; cbn; [intros l x; destruct (loc_eqb_spec l L); [discriminate|apply (proj1 W)]|].
      intros l1 l2 x. destruct (loc_eqb_spec l1 L); [discriminate|]. destruct (loc_eqb_spec l2 L); [discriminate|]. apply (proj2 W).
    + intros l NL. unfold contents; cbn. destruct (loc_eqb_spec l L); [contradiction|reflexivity].
    + exists own. split; [apply K|apply X, F].
    + exact X.
Qed.

(* programs running alone *)
Lemma steps_isolated {A} e ok s (pr : prog A) s' pr' L own : wf s -> only e L own pr -> safe s L own -> steps e ok s pr s' pr' ->
  wf s' /\ forall l, l <> L -> contents s' l = contents s l.
Proof.
  intros W O F H. revert own W O F. induction H as [|s pr h s1 pr1 s2 pr2 K E H IH]; intros own W O F; [auto|].
  destruct (step_isolated _ _ _ _ _ _ _ _ W O F E) as (W1 & C1 & (own1 & O1 & F1) & _).
  destruct (IH own1 W1 O1 F1) as [W2 C2]. split; [exact W2|]. intros l N. rewrite C2, C1 by exact N. reflexivity.
Qed.
Lemma none_safe s L : safe s L (fun _ => False).
Proof. intros n []. Qed.
Lemma hook_isolated {I} (c : codec I) e ok dir s h s' pr' : wf s -> steps e ok s (code c dir h) s' pr' ->
  wf s' /\ forall l, l <> file_of (e_cwd e) dir (hook_key h) -> contents s' l = contents s l.
Proof. intros W H. eapply steps_isolated; [exact W|apply (code_only c e dir h (fun _ => False))|apply none_safe|exact H]. Qed.

(* programs running together *)
Definition tended {I} (e : env) (ks : loc -> Prop) (w : world I) : Prop :=
  wf (w_fs w) /\ forall i pr, nth_error (w_ts w) i = Some pr -> exists L own, ks L /\ only e L own pr /\ safe (w_fs w) L own.
Lemma disturbed_isolated {I} (c : codec I) e dir ok w hs w' : disturbed c e dir ok w hs w' -> forall ks : loc -> Prop, tended e ks w ->
  (forall h, In h hs -> ks (file_of (e_cwd e) dir (hook_key h))) ->
  wf (w_fs w') /\ forall l, ~ ks l -> contents (w_fs w') l = contents (w_fs w) l.
Proof.
  intros D. induction D as [w|w h w1 hs w2 E D IH|w i h w1 hs w2 K E D IH]; intros ks T Hks.
  - split; [apply T|reflexivity].
  - cbn in E. injection E as E. subst w1. apply (IH ks); [|intros h' H'; apply Hks; right; exact H'].
    split; [apply T|]. cbn. intros i pr Hi. apply nth_error_snoc_some in Hi. destruct Hi as [Hi|[_ ->]]; [apply (proj2 T i pr Hi)|].
    eexists. exists (fun _ => False). split; [apply Hks; left; reflexivity|]. split; [apply code_only|apply none_safe].
  - cbn in E. destruct (nth_error (w_ts w) i) as [pr|] eqn:Hi; [|discriminate]. destruct (step e (w_fs w) pr h) as [[s pr']|] eqn:S; [|discriminate].
    injection E as E. subst w1. destruct T as [W T]. destruct (T i pr Hi) as (L & own & KL & O & F).
    destruct (step_isolated _ _ _ _ _ _ _ _ W O F S) as (W1 & C1 & (own1 & O1 & F1) & X).
    destruct (IH ks) as [W2 C2].
    + split; [exact W1|]. cbn. intros j pr2 Hj. apply set_nth_lookup in Hj. destruct Hj as [[_ ->]|[_ Hj]]; [eauto|].
      destruct (T j pr2 Hj) as (L2 & own2 & KL2 & O2 & F2). exists L2, own2. split; [exact KL2|]. split; [exact O2|apply X, F2].
    + exact Hks.
    + split; [exact W2|]. intros l N. rewrite (C2 l N). cbn. apply C1. intros ->. contradiction.
Qed.

(* ----- writing ----- *)
Definition same_but (s s' : fs) (n : nat) (b : bytes) : Prop :=
  f_dir s' = f_dir s /\ f_next s' = f_next s /\ f_data s' n = b /\ forall m, m <> n -> f_data s' m = f_data s m.
Lemma same_refl s n : same_but s s n (f_data s n).
Proof. repeat split. Qed.
Lemma write_cases {A} e ok (k : bool -> prog A) n : forall data s s' pr', steps e ok s (WriteAt n (length (f_data s n)) data k) s' pr' ->
  (exists j, same_but s s' n (f_data s n ++ firstn j data) /\ pr' = WriteAt n (length (f_data s n) + length (firstn j data)) (skipn j data) k) \/
  (exists s1, same_but s s1 n (f_data s n ++ data) /\ steps e ok s1 (k true) s' pr') \/
  (exists s1 j, ok Fail /\ same_but s s1 n (f_data s n ++ firstn j data) /\ steps e ok s1 (k false) s' pr').
Proof.
  intros data. remember (length data) as len eqn:Len. revert data Len. induction len as [len IH] using lt_wf_ind. intros data Len s s' pr' H.
  inversion H as [|? ? h s1 pr1 ? ? K E H']; subst.
  - left. exists 0. cbn. rewrite app_nil_r, Nat.add_0_r. split; [apply same_refl|reflexivity].
  - cbn in E. destruct h as [m|].
    + destruct data as [|x data].
      * injection E as E1 E2. subst s1 pr1. right. left. exists s. rewrite app_nil_r. split; [apply same_refl|exact H'].
      * set (b := firstn (S m) (x :: data)) in *. set (r := skipn (S m) (x :: data)) in *.
        assert (EB : b ++ r = x :: data) by apply firstn_skipn.
        assert (NB : b <> []) by (subst b; discriminate).
        change (Some (set_data s n (splice (f_data s n) (length (f_data s n)) b), WriteAt n (length (f_data s n) + length b) r k) = Some (s1, pr1)) in E.
        clearbody b r.
        injection E as E1 E2. rewrite splice_end in E1. subst s1 pr1.
        set (s1 := set_data s n (f_data s n ++ b)) in *.
        assert (D1 : f_data s1 n = f_data s n ++ b) by (cbn; rewrite Nat.eqb_refl; reflexivity).
        assert (D2 : forall m, m <> n -> f_data s1 m = f_data s m) by (intros y Y; cbn; destruct (Nat.eqb_spec y n); congruence).
        replace (length (f_data s n) + length b) with (length (f_data s1 n)) in H' by (rewrite D1, app_length; reflexivity).
        assert (LT : length r < length (x :: data)) by (rewrite <- EB, app_length; destruct b; [congruence|cbn; lia]).
        assert (FJ : forall j, firstn (length b + j) (x :: data) = b ++ firstn j r)
          by (intros j; rewrite <- EB; apply firstn_app_2).
        assert (SJ : forall j, skipn (length b + j) (x :: data) = skipn j r).
        { intros j. rewrite <- EB, skipn_app. rewrite skipn_all2 by lia. cbn. f_equal. lia. }
        assert (TR : forall y t, same_but s1 y n (f_data s1 n ++ t) -> same_but s y n (f_data s n ++ b ++ t)).
        { intros y t (Q1 & Q2 & Q3 & Q4). repeat split; [exact Q1|exact Q2|rewrite Q3, D1, app_assoc; reflexivity|]. intros z Z. rewrite Q4, D2 by exact Z. reflexivity. }
        destruct (IH _ LT r eq_refl s1 s' pr' H') as [(j & SB & ->)|[(y & SB & ST)|(y & j & OK & SB & ST)]].
        -- left. exists (length b + j). rewrite FJ, SJ, D1. split; [apply TR, SB|]. f_equal. rewrite !app_length. lia.
        -- right. left. exists y. rewrite <- EB. split; [apply TR, SB|exact ST].
        -- right. right. exists y, (length b + j). rewrite FJ. split; [exact OK|]. split; [apply TR, SB|exact ST].
    + injection E as E1 E2. subst s1 pr1. right. right. exists s, 0. cbn. rewrite app_nil_r. split; [exact K|]. split; [apply same_refl|exact H'].
Qed.
Lemma ret_steps {A} e ok s (a : A) s' pr' : steps e ok s (Ret a) s' pr' -> s' = s /\ pr' = Ret a.
Proof. intros H. inversion H; subst; [auto|discriminate]. Qed.

(* what is in the file of a program while it writes it, and afterwards *)
Lemma contents_same s s' n b L : same_but s s' n b -> f_dir s L = Some n -> contents s' L = Some b.
Proof. intros (Q1 & _ & Q3 & _) D. unfold contents. rewrite Q1, D, Q3. reflexivity. Qed.
Lemma save_cases {A} e ok (k : bool -> prog A) p data s s' pr' L : locate (e_cwd e) p = L ->
  steps e ok s (WriteFile p data k) s' pr' ->
  (s' = s /\ pr' = WriteFile p data k) \/
  ((ok Fail \/ e_access e L <> Fine) /\ steps e ok s (k false) s' pr') \/
  (e_access e L = Fine /\
   ((exists n j, contents s' L = Some (firstn j data) /\ pr' = WriteAt n (length (firstn j data)) (skipn j data) k) \/
    (exists s1, contents s1 L = Some data /\ steps e ok s1 (k true) s' pr') \/
    (ok Fail /\ exists s1 j, contents s1 L = Some (firstn j data) /\ steps e ok s1 (k false) s' pr'))).
Proof.
  intros HL H. unfold WriteFile in H. inversion H as [|? ? h s1 pr1 ? ? K E H']; subst; [left; auto|]. right. cbn in E.
  destruct h as [m|]; [|injection E as E1 E2; subst s1 pr1; left; auto].
  unfold fine in E. destruct (e_access e (locate (e_cwd e) p)) eqn:AC; try (injection E as E1 E2; subst s1 pr1; left; split; [right; congruence|exact H']).
  right. split; [reflexivity|].
  assert (G : exists n, f_dir s1 (locate (e_cwd e) p) = Some n /\ f_data s1 n = [] /\ pr1 = WriteAt n 0 data k).
  { destruct (f_dir s (locate (e_cwd e) p)) as [n|] eqn:D; injection E as E1 E2; subst s1 pr1.
    - exists n. cbn. rewrite Nat.eqb_refl. auto.
    - exists (f_next s). cbn. rewrite Nat.eqb_refl. destruct (loc_eqb_spec (locate (e_cwd e) p) (locate (e_cwd e) p)); [auto|congruence]. }
  destruct G as (n & D & Z & ->). clear E.
  replace 0 with (length (f_data s1 n)) in H' by (rewrite Z; reflexivity).
  destruct (write_cases e ok k n data s1 s' pr' H') as [(j & SB & ->)|[(y & SB & ST)|(y & j & OK & SB & ST)]]; rewrite Z in SB; cbn [app] in SB.
  - left. exists n, j. rewrite Z. split; [apply (contents_same _ _ _ _ _ SB D)|reflexivity].
  - right. left. exists y. split; [apply (contents_same _ _ _ _ _ SB D)|exact ST].
  - right. right. split; [exact OK|]. exists y, j. split; [apply (contents_same _ _ _ _ _ SB D)|exact ST].
Qed.
