(* Proofs about the directory of the default session manager. *)
From Coq Require Import List Arith NArith ZArith Lia Bool.
From Verif Require Import BaseBytes BaseConc ModelMessage ModelKey ModelPath ModelFiles ModelDir SpecKey SpecFiles ProofKey ProofPath ProofFiles ProofFiles2 ProofFiles3 ProofFiles4.
Import ListNotations.
Open Scope nat_scope.

Lemma set_mode_same d l m : set_mode d l m l = Some m.
Proof. unfold set_mode. destruct (loc_eqb_spec l l); congruence. Qed.
Lemma set_mode_other d l m l' : l' <> l -> set_mode d l m l' = d l'.
Proof. unfold set_mode. destruct (loc_eqb_spec l' l); congruence. Qed.
Lemma search_local pr d d' : forall l, (forall l', length l' <= length l -> d' l' = d l') -> search pr d' l = search pr d l.
Proof.
  induction l as [|n p IH]; intros H; cbn [search]; rewrite H by (cbn; lia); [reflexivity|].
  rewrite IH; [reflexivity|]. intros l' L. apply H. cbn. lia.
Qed.
Lemma search_set pr d n p m : search pr (set_mode d (n :: p) m) p = search pr d p.
Proof. apply search_local. intros l' L. apply set_mode_other. intros ->. cbn in L. lia. Qed.

Lemma mkdir_inv pr d l perm d' : mkdir pr d l perm = Some d' -> exists n p m, l = n :: p /\ search pr d p = Fine /\ d p = Some m /\
  p_root pr || w_bit m = true /\ d l = None /\ d' = set_mode d l (N.ldiff perm (p_umask pr)).
Proof.
  destruct l as [|n p]; cbn; [discriminate|]. destruct (search pr d p) eqn:S; try discriminate. destruct (d p) as [m|] eqn:D; [|discriminate].
  destruct (d (n :: p)) eqn:D'; [discriminate|]. destruct (p_root pr || w_bit m) eqn:W; [|discriminate]. intros [= <-]. exists n, p, m. auto 10.
Qed.
Lemma search_exists pr d : forall l, search pr d l = Fine -> exists m, d l = Some m /\ p_root pr || x_bit m = true.
Proof.
  intros l S. assert (H : match d l with None => Missing | Some m => if p_root pr || x_bit m then Fine else Denied end = Fine).
  { destruct l as [|n p]; cbn [search] in S; [exact S|]. destruct (search pr d p); [exact S|discriminate|discriminate]. }
  destruct (d l) as [m|]; [|discriminate]. exists m. destruct (p_root pr || x_bit m); [auto|discriminate].
Qed.
Lemma search_root d pr l : p_root pr = true -> stat_dir pr d l = StExists -> search pr d l = Fine.
Proof.
  intros R S. unfold stat_dir in S. destruct l as [|n p]; cbn [search].
  - destruct (d []); [rewrite R; reflexivity|discriminate].
  - destruct (search pr d p); try discriminate. destruct (d (n :: p)); [rewrite R; reflexivity|discriminate].
Qed.
(* what MkdirAll leaves behind *)
Lemma mkdirall_root pr perm : p_root pr = true -> forall l d d', MkdirAll pr d l perm = Some d' -> search pr d' l = Fine.
Proof.
  intros R. induction l as [|n p IH]; intros d d' H; cbn [MkdirAll] in H.
  - destruct (stat_dir pr d []) eqn:S; try discriminate. injection H as <-. apply search_root; assumption.
  - destruct (stat_dir pr d (n :: p)) eqn:S; [injection H as <-; apply search_root; assumption| |];
    (destruct (MkdirAll pr d p perm) as [d1|] eqn:M; [|discriminate]; destruct (mkdir pr d1 (n :: p) perm) as [d2|] eqn:K;
     [injection H as <-; apply mkdir_inv in K; destruct K as (? & ? & m & E & S1 & D1 & _ & _ & ->); injection E as <- <-;
      cbn [search]; rewrite search_set, S1, set_mode_same, R; reflexivity
     |destruct (stat_dir pr d1 (n :: p)) eqn:S1; try discriminate; injection H as <-; apply search_root; assumption]).
Qed.

Theorem dir_root {I} : forall pr cwd exe d path d' dir, p_root pr = true -> NewDefaultSessionManager pr cwd exe d path = Some (d', dir) ->
  (path <> [] \/ exe <> []) ->
  dir <> [] /\ forall h : hook I, plain (hook_key h) -> e_access (env_of pr cwd d') (file_of cwd dir (hook_key h)) = Fine.
Proof.
  intros pr cwd exe d path d' dir R H NE. unfold NewDefaultSessionManager in H.
  set (q := match path with [] => Join [exe; wwrsess] | _ => path end) in *.
  assert (NQ : q <> []).
  { subst q. destruct path as [|x path]; [|discriminate]. destruct NE as [|NE]; [congruence|]. cbn [Join]. rewrite bytes_eqb_ne by exact NE.
    unfold Clean. destruct (join [exe; wwrsess]) as [|y t]; [discriminate|]. destruct (rooted (y :: t)); [discriminate|].
    intros E. destruct (rev (fold_left (clean_step false) (split (y :: t)) [])) as [|z zs] eqn:RV; [discriminate|].
    assert (FL : forall ws out : list bytes, Forall (fun w : bytes => w <> []) out -> Forall (fun w : bytes => w <> []) (fold_left (clean_step false) ws out)).
    { induction ws as [|w ws IHw]; intros out F; cbn; [exact F|]. apply IHw. unfold clean_step.
      destruct (bytes_eqb_spec w []); [exact F|]. cbn. destruct (bytes_eqb w dot); [exact F|]. destruct (bytes_eqb w dotdot).
      - destruct out as [|t0 out0]; [repeat constructor; assumption|]. destruct (bytes_eqb t0 dotdot); [constructor; assumption|inversion F; assumption].
      - constructor; assumption. }
    specialize (FL (split (y :: t)) [] (Forall_nil _)). apply Forall_rev in FL. rewrite RV in FL. inversion FL as [|? ? NZ _]; subst.
    destruct zs; cbn in E; [contradiction|]. destruct z; [contradiction|discriminate]. }
  assert (G : dir = q /\ search pr d' (locate cwd q) = Fine).
  { destruct (stat_dir pr d (locate cwd q)) eqn:S; [|destruct (MkdirAll pr d (locate cwd q) 416) as [d1|] eqn:M; [|discriminate]|discriminate];
      injection H as <- <-; (split; [reflexivity|]); [apply search_root; assumption|eapply mkdirall_root; eassumption]. }
  destruct G as [-> S]. split; [exact NQ|]. intros h P. cbn [e_access env_of]. rewrite file_inside by assumption.
  unfold file_access. unfold dir_of. rewrite S. destruct (search_exists _ _ _ S) as (m & -> & _). rewrite R. reflexivity.
Qed.

(* others cannot use the directory they made *)
Lemma made_no_x umask : x_bit (N.ldiff 416 umask) = false.
Proof. unfold x_bit. rewrite N.ldiff_spec. reflexivity. Qed.
Lemma mkdirall_new pr : p_root pr = false -> forall l d d', MkdirAll pr d l 416 = Some d' -> stat_dir pr d l <> StExists ->
  exists n p, l = n :: p /\ search pr d p = Fine /\ search pr d' l = Denied.
Proof.
  intros R l. induction l as [|n p IH]; intros d d' H NS; cbn [MkdirAll] in H.
  - destruct (stat_dir pr d []); [congruence|discriminate|discriminate].
  - exists n, p. split; [reflexivity|].
    assert (H' : match MkdirAll pr d p 416 with None => None | Some d1 => match mkdir pr d1 (n :: p) 416 with Some d2 => Some d2
               | None => match stat_dir pr d1 (n :: p) with StExists => Some d1 | _ => None end end end = Some d')
      by (destruct (stat_dir pr d (n :: p)); [congruence|exact H|exact H]).
    clear H. destruct (MkdirAll pr d p 416) as [d1|] eqn:M; [|discriminate].
    assert (EX : stat_dir pr d p = StExists).
    { destruct (stat_dir pr d p) eqn:SP; [reflexivity| |];
      (destruct (IH d d1 M ltac:(congruence)) as (n0 & p0 & -> & _ & DN);
       unfold mkdir in H'; rewrite DN in H'; unfold stat_dir in H'; rewrite DN in H'; discriminate). }
    assert (d1 = d) as -> by (destruct p; cbn [MkdirAll] in M; rewrite EX in M; congruence).
    destruct (mkdir pr d (n :: p) 416) as [d2|] eqn:K.
    + injection H' as <-. apply mkdir_inv in K. destruct K as (? & ? & m & E & S1 & D1 & _ & _ & ->). injection E as <- <-.
      split; [exact S1|]. cbn [search]. rewrite search_set, S1, set_mode_same, R, made_no_x. reflexivity.
    + destruct (stat_dir pr d (n :: p)); [congruence|discriminate|discriminate].
Qed.
Theorem dir_user {I} : forall pr cwd exe d path d' dir, p_root pr = false -> NewDefaultSessionManager pr cwd exe d path = Some (d', dir) ->
  dir <> [] -> stat_dir pr d (locate cwd dir) <> StExists ->
  forall (c : codec I) h s r s', plain (hook_key h) -> runs c (env_of pr cwd d') dir s [(h, r)] s' -> s' = s /\ r = RError.
Proof.
  intros pr cwd exe d path d' dir R H NE NS c h s r s' P RU. unfold NewDefaultSessionManager in H.
  set (q := match path with [] => Join [exe; wwrsess] | _ => path end) in *.
  assert (G : dir = q /\ search pr d' (locate cwd dir) = Denied).
  { destruct (stat_dir pr d (locate cwd q)) eqn:S; [injection H as H1 H2; congruence| |discriminate].
    destruct (MkdirAll pr d (locate cwd q) 416) as [d1|] eqn:M; [|discriminate]. injection H as H1 H2. subst d' dir. split; [reflexivity|].
    destruct (mkdirall_new pr R _ _ _ M NS) as (_ & _ & _ & _ & DN). exact DN. }
  destruct G as [_ S].
  assert (A : e_access (env_of pr cwd d') (file_of (e_cwd (env_of pr cwd d')) dir (hook_key h)) = Denied).
  { cbn [e_access env_of e_cwd]. rewrite file_inside by assumption. cbn [file_access]. unfold dir_of. rewrite S. reflexivity. }
  destruct (manager_no_access c _ dir h s r s' ltac:(rewrite A; discriminate) RU) as [-> ->]. rewrite A. split; [reflexivity|]. destruct h; reflexivity.
Qed.
(* nor can they make nested directories *)
Theorem dir_nested : forall pr cwd exe d path n p, p_root pr = false -> path <> [] -> locate cwd path = n :: p -> stat_dir pr d p <> StExists ->
  NewDefaultSessionManager pr cwd exe d path = None.
Proof.
  intros pr cwd exe d path n p R NE L NS. unfold NewDefaultSessionManager. destruct path as [|x path]; [congruence|]. rewrite L.
  assert (SP : search pr d p <> Fine).
  { intros S. apply NS. unfold stat_dir. destruct (search_exists _ _ _ S) as (m & -> & _).
    destruct p as [|n0 p0]; [reflexivity|]. cbn [search] in S. destruct (search pr d p0); [reflexivity|discriminate|discriminate]. }
  destruct (stat_dir pr d (n :: p)) eqn:ST; [|destruct (MkdirAll pr d (n :: p) 416) as [d1|] eqn:M; [|reflexivity]|reflexivity]; exfalso.
  - unfold stat_dir in ST. destruct (search pr d p); [apply SP; reflexivity|discriminate|discriminate].
  - destruct (mkdirall_new pr R _ _ _ M ltac:(congruence)) as (n' & p' & E & S & _). injection E as <- <-. contradiction.
Qed.
(* generated keys are file names *)
Theorem generated_plain : forall rand b k, gives rand b -> generateSessionKey rand = Some k -> plain k.
Proof.
  intros rand b k G E. destruct (key_shape rand b G) as (k' & E' & _ & S). rewrite E in E'. injection E' as <-.
  intros IN. rewrite Forall_forall in S. specialize (S _ IN). vm_compute in S. intuition congruence.
Qed.

(* ---------- what the permissions mean ---------- *)
Lemma bit_div m k : N.testbit m k = ((m / 2 ^ k) mod 2 =? 1)%N.
Proof.
  pose proof (N.testbit_spec' m k) as H. pose proof (N.mod_lt (m / 2 ^ k) 2 ltac:(discriminate)).
  destruct (N.testbit m k); cbn in H; rewrite <- H; reflexivity.
Qed.
Lemma may_bit (root bit : bool) (P : Prop) : (bit = true <-> P) -> (root || bit = true <-> (root = false -> P)).
Proof. intros H. destruct root; cbn; [intuition discriminate|]. rewrite H. intuition. Qed.
Lemma x_may pr m : p_root pr || x_bit m = true <-> (p_root pr = false -> (m / 64) mod 2 = 1)%N.
Proof. apply may_bit. unfold x_bit. rewrite bit_div. apply N.eqb_eq. Qed.
Lemma w_may pr m : p_root pr || w_bit m = true <-> (p_root pr = false -> (m / 128) mod 2 = 1)%N.
Proof. apply may_bit. unfold w_bit. rewrite bit_div. apply N.eqb_eq. Qed.
Lemma here_fine pr (d : dirs) l : (match d l with None => Missing | Some m => if p_root pr || x_bit m then Fine else Denied end) = Fine <->
  exists m, d l = Some m /\ (p_root pr = false -> (m / 64) mod 2 = 1)%N.
Proof.
  destruct (d l) as [m|].
  - pose proof (x_may pr m) as X. destruct (p_root pr || x_bit m).
    + split; [intros _; exists m; split; [reflexivity|apply X; reflexivity]|reflexivity].
    + split; [discriminate|]. intros (m' & [= <-] & H). apply X in H. discriminate.
  - split; [discriminate|]. intros (m & H & _). discriminate.
Qed.
Lemma search_exact pr d p : search pr d p = Fine <->
  forall x q, p = x ++ q -> exists m, d q = Some m /\ (p_root pr = false -> (m / 64) mod 2 = 1)%N.
Proof.
  induction p as [|n p IH]; cbn [search].
  - rewrite here_fine. split.
    + intros H x q E. symmetry in E. apply app_eq_nil in E as [_ ->]. exact H.
    + intros H. apply (H [] []). reflexivity.
  - split.
    + destruct (search pr d p); try discriminate. intros H x q E. destruct x as [|y x]; cbn in E.
      * subst q. apply here_fine, H.
      * injection E as _ E. exact (proj1 IH eq_refl x q E).
    + intros H. rewrite (proj2 IH); [apply here_fine, (H [] (n :: p)); reflexivity|].
      intros x q E. apply (H (n :: x) q). cbn. congruence.
Qed.
Lemma access_exact pr d n p : file_access pr d (n :: p) = Fine <->
  (forall x q, p = x ++ q -> exists m, d q = Some m /\ (p_root pr = false -> (m / 64) mod 2 = 1)%N) /\
  (exists m, d p = Some m /\ (p_root pr = false -> (m / 128) mod 2 = 1)%N).
Proof.
  rewrite <- search_exact. unfold file_access. destruct (search pr d p); [|intuition discriminate|intuition discriminate].
  destruct (d p) as [m|].
  - pose proof (w_may pr m) as X. destruct (p_root pr || w_bit m).
    + split; [intros _; split; [reflexivity|exists m; split; [reflexivity|apply X; reflexivity]]|reflexivity].
    + split; [discriminate|]. intros (_ & m' & [= <-] & H). apply X in H. discriminate.
  - split; [discriminate|]. intros (_ & m & H & _). discriminate.
Qed.
Lemma exists_exact pr d n p : stat_dir pr d (n :: p) = StExists <->
  (forall x q, p = x ++ q -> exists m, d q = Some m /\ (p_root pr = false -> (m / 64) mod 2 = 1)%N) /\ exists m, d (n :: p) = Some m.
Proof.
  rewrite <- search_exact. unfold stat_dir. destruct (search pr d p); [|intuition discriminate|intuition discriminate].
  destruct (d (n :: p)) as [m|]; split; try discriminate; eauto. intros (_ & m & H). discriminate.
Qed.
