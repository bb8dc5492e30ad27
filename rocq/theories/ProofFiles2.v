(* The default session manager as a map; crashes. *)
From Coq Require Import List Arith NArith ZArith Lia Bool.
From Verif Require Import BaseBytes BaseConc ModelMessage ModelPath ModelFiles SpecFiles ProofPath ProofFiles.
Import ListNotations.
Open Scope nat_scope.

#[local] Arguments filePath : simpl never.
#[local] Arguments locate : simpl never.
#[local] Arguments stat_of : simpl never.
#[local] Arguments fine : simpl never.
Section Map.
Context {I : Type} (c : codec I) (norm : I -> I) (FA : faithful c norm) (e : env) (dir : bytes) (ND : dir <> []).
Notation file k := (file_of (e_cwd e) dir k).
Notation stores := (stores c e dir).

Definition holds (s : fs) (L : loc) (v : option (Z * Z * I)) : Prop :=
  match v with
  | None => contents s L = None
  | Some (cr, lo, i) => exists b, contents s L = Some b /\ unmarshal c b = Some (MkSfile cr lo i)
  end.
Lemma stores_holds s m k : stores s m -> plain k -> holds s (file k) (m k).
Proof. intros [_ H] P. specialize (H k P). unfold holds. destruct (m k) as [[[cr lo] i]|]; exact H. Qed.
Lemma stores_put s s' m k v : stores s m -> plain k -> wf s' -> (forall l, l <> file k -> contents s' l = contents s l) ->
  holds s' (file k) v -> stores s' (put m k v).
Proof.
  intros S P W C H. split; [exact W|]. intros k' P'. unfold put. destruct (bytes_eqb_spec k' k) as [->|N].
  - unfold holds in H. destruct v as [[[cr lo] i]|]; exact H.
  - assert (NL : file k' <> file k) by (intros E; apply N; eapply file_distinct; eauto).
    pose proof (stores_holds _ _ _ S P') as H'. unfold holds in H'. rewrite (C _ NL). exact H'.
Qed.
Lemma stores_same s s' m : stores s m -> wf s' -> (forall l, contents s' l = contents s l) -> stores s' m.
Proof. intros [_ S] W C. split; [exact W|]. intros k P. rewrite C. apply (S k P). Qed.
Lemma works_fail : ~ works Fail.
Proof. intros H. apply H. reflexivity. Qed.

Lemma dir_contents s L n : f_dir s L = Some n -> contents s L = Some (f_data s n).
Proof. intros D. unfold contents. rewrite D. reflexivity. Qed.
Lemma stat_contents s p L : locate (e_cwd e) p = L -> e_access e L = Fine ->
  stat_of e s p = match contents s L with Some _ => StExists | None => StNotExist end.
Proof. intros HL AC. unfold stat_of, contents. rewrite HL, AC. destruct (f_dir s L); reflexivity. Qed.
Lemma read_contents s p L : locate (e_cwd e) p = L -> e_access e L = Fine ->
  (if fine e p then match f_dir s (locate (e_cwd e) p) with Some n => Some (f_data s n) | None => None end else None) = contents s L.
Proof. intros HL AC. unfold fine, contents. rewrite HL, AC. reflexivity. Qed.

(* where a lookup can be, and what its file holds then. b: contents of the file before *)
Lemma lookup_cases ok s k now s' pr' : e_access e (file k) = Fine -> steps e ok s (code c dir (HLookup k now)) s' pr' ->
  match contents s (file k) with
  | None => s' = s /\ ((forall r, pr' <> Ret r) \/ pr' = Ret RNone \/ (ok Fail /\ pr' = Ret RError))
  | Some b =>
      (s' = s /\ ((forall r, pr' <> Ret r) \/ (ok Fail /\ pr' = Ret RError) \/
         (pr' = Ret RError /\ (unmarshal c b = None \/ exists f, unmarshal c b = Some f /\ marshal c (MkSfile (sf_creation f) now (sf_info f)) = None)))) \/
      exists f b', unmarshal c b = Some f /\ marshal c (MkSfile (sf_creation f) now (sf_info f)) = Some b' /\
        ((exists j, contents s' (file k) = Some (firstn j b') /\ ((forall r, pr' <> Ret r) \/ (ok Fail /\ pr' = Ret RError))) \/
         (contents s' (file k) = Some b' /\ pr' = Ret (RFound (sf_creation f) (sf_lookup f) (sf_info f))))
  end.
Proof.
  intros AC H. cbn [code] in H. unfold OnSessionLookup in H.
  inversion H as [|? ? h s1 pr1 ? ? K E H1]; subst; clear H.
  { destruct (contents s' (file k)); [left|]; (split; [reflexivity|left; discriminate]). }
  cbn in E. destruct h as [x|].
  2: { injection E as E1 E2. subst s1 pr1. apply ret_steps in H1. destruct H1 as [-> ->].
       destruct (contents s (file k)); [left|]; (split; [reflexivity|]); right; [left|right]; auto. }
  injection E as E1 E2. subst s1 pr1. rewrite (stat_contents s _ (file k) eq_refl AC) in H1.
  destruct (contents s (file k)) as [b|] eqn:CT.
  2: { apply ret_steps in H1. destruct H1 as [-> ->]. split; [reflexivity|auto]. }
  unfold Parse in H1. inversion H1 as [|? ? h s1 pr1 ? ? K1 E H2]; subst; clear H1.
  { left. split; [reflexivity|left; discriminate]. }
  cbn in E. destruct h as [y|].
  2: { injection E as E1 E2. subst s1 pr1. apply ret_steps in H2. destruct H2 as [-> ->]. left. split; [reflexivity|auto]. }
  injection E as E1 E2. subst s1 pr1. rewrite (read_contents s _ (file k) eq_refl AC), CT in H2.
  destruct (unmarshal c b) as [f|] eqn:U.
  2: { apply ret_steps in H2. destruct H2 as [-> ->]. left. split; [reflexivity|]. right. right. auto. }
  unfold Save in H2. destruct (marshal c (MkSfile (sf_creation f) now (sf_info f))) as [b'|] eqn:M.
  2: { apply ret_steps in H2. destruct H2 as [-> ->]. left. split; [reflexivity|]. right. right. split; [reflexivity|right; eauto]. }
  apply (save_cases e ok _ _ _ _ _ _ (file k) eq_refl) in H2.
  destruct H2 as [[-> ->]|[[[OK|NA] ST]|[_ [(n & j & C & ->)|[(s1 & C & ST)|(OK & s1 & j & C & ST)]]]]].
  - left. split; [reflexivity|left; discriminate].
  - apply ret_steps in ST. destruct ST as [-> ->]. left. split; [reflexivity|auto].
  - contradiction.
  - right. exists f, b'. split; [reflexivity|]. split; [exact M|]. left. exists j. split; [exact C|left; discriminate].
  - apply ret_steps in ST. destruct ST as [-> ->]. right. exists f, b'. split; [reflexivity|]. split; [exact M|]. right. auto.
  - apply ret_steps in ST. destruct ST as [-> ->]. right. exists f, b'. split; [reflexivity|]. split; [exact M|]. left. exists j. auto.
Qed.
Lemma create_cases ok s k cr lo i s' pr' : e_access e (file k) = Fine -> steps e ok s (code c dir (HCreate k cr lo i)) s' pr' ->
  match marshal c (MkSfile cr lo i) with
  | None => s' = s /\ pr' = Ret RError
  | Some b => (s' = s /\ ((forall r, pr' <> Ret r) \/ (ok Fail /\ pr' = Ret RError))) \/
      (exists j, contents s' (file k) = Some (firstn j b) /\ ((forall r, pr' <> Ret r) \/ (ok Fail /\ pr' = Ret RError))) \/
      (contents s' (file k) = Some b /\ pr' = Ret RDone)
  end.
Proof.
  intros AC H. cbn [code] in H. unfold OnSessionCreated, Save in H. destruct (marshal c (MkSfile cr lo i)) as [b|]; [|apply ret_steps in H; exact H].
  apply (save_cases e ok _ _ _ _ _ _ (file k) eq_refl) in H.
  destruct H as [[-> ->]|[[[OK|NA] ST]|[_ [(n & j & C & ->)|[(s1 & C & ST)|(OK & s1 & j & C & ST)]]]]].
  - left. split; [reflexivity|left; discriminate].
  - apply ret_steps in ST. destruct ST as [-> ->]. left. auto.
  - contradiction.
  - right. left. exists j. split; [exact C|left; discriminate].
  - apply ret_steps in ST. destruct ST as [-> ->]. right. right. auto.
  - apply ret_steps in ST. destruct ST as [-> ->]. right. left. exists j. auto.
Qed.
Lemma close_cases ok s k s' pr' : e_access e (file k) = Fine -> steps e ok s (code c dir (HClose k)) s' pr' ->
  (s' = s /\ ((forall r, pr' <> Ret r) \/ (ok Fail /\ pr' = Ret RError) \/ (contents s (file k) = None /\ pr' = Ret RError))) \/
  (contents s (file k) <> None /\ contents s' (file k) = None /\ pr' = Ret RDone).
Proof.
  intros AC H. cbn [code] in H. unfold OnSessionClosed in H. inversion H as [|? ? h s1 pr1 ? ? K E H1]; subst; clear H.
  { left. split; [reflexivity|left; discriminate]. }
  cbn in E. destruct h as [x|].
  2: { injection E as E1 E2. subst s1 pr1. apply ret_steps in H1. destruct H1 as [-> ->]. left. auto. }
  change (locate (e_cwd e) (filePath dir k)) with (file k) in E. unfold fine in E. change (locate (e_cwd e) (filePath dir k)) with (file k) in E. rewrite AC in E.
  destruct (f_dir s (file k)) as [n|] eqn:D; injection E as E1 E2; subst s1 pr1; apply ret_steps in H1; destruct H1 as [-> ->].
  - right. unfold contents. rewrite D. split; [discriminate|]. cbn. destruct (loc_eqb_spec (file k) (file k)); [auto|congruence].
  - left. split; [reflexivity|]. right. right. split; [|reflexivity]. unfold contents. rewrite D. reflexivity.
Qed.

(* the hooks do what is asked for *)
Lemma serve_step s m h s' r : stores s m -> usable e dir h -> steps e works s (code c dir h) s' (Ret r) ->
  r = fst (serve c norm m h) /\ stores s' (snd (serve c norm m h)).
Proof.
  intros S (P & AC & T) H. pose proof (hook_isolated c e works dir s h s' _ (proj1 S) H) as [W ISO].
  destruct h as [k cr lo i|k now|k]; cbn [hook_key] in *; pose proof (stores_holds _ _ _ S P) as HO.
  - apply create_cases in H; [|exact AC]. cbn [serve]. destruct (marshal c (MkSfile cr lo i)) as [b|] eqn:M.
    + destruct H as [[_ [X|[X _]]]|[(j & _ & [X|[X _]])|[C E]]]; try (exfalso; exact (X r eq_refl)); try (exfalso; exact (works_fail X)).
      injection E as ->. split; [reflexivity|]. apply (stores_put s); auto. exists b. split; [exact C|]. apply (fa_round _ _ FA _ _ M).
    + destruct H as [-> E]. injection E as ->. split; [reflexivity|exact S].
  - apply lookup_cases in H; [|exact AC]. cbn [serve]. destruct (m k) as [[[cr lo] i]|]; cbn [holds] in HO.
    + destruct HO as (b & C & U). rewrite C in H. destruct (fa_again _ _ FA _ _ now U T) as [b' M]. cbn [sf_creation sf_info] in M.
      destruct H as [[_ [X|[[X _]|[E [X|(f & U' & X)]]]]]|(f & b2 & U' & M' & [(j & _ & [X|[X _]])|[C' E]])];
        try (exfalso; exact (X r eq_refl)); try (exfalso; exact (works_fail X)); try congruence.
      * rewrite U in U'. injection U' as <-. cbn in X. congruence.
      * rewrite U in U'. injection U' as <-. cbn in *. injection E as ->. split; [reflexivity|]. apply (stores_put s); auto.
        exists b2. split; [exact C'|]. pose proof (fa_round _ _ FA _ _ M') as R. cbn in R. rewrite R.
        pose proof (fa_norm _ _ FA _ _ U) as N. cbn in N. rewrite N. reflexivity.
    + rewrite HO in H. destruct H as [-> [X|[E|[X _]]]]; try (exfalso; exact (X r eq_refl)); try (exfalso; exact (works_fail X)).
      injection E as ->. split; [reflexivity|exact S].
  - apply close_cases in H; [|exact AC]. cbn [serve].
    destruct H as [[-> [X|[[X _]|[C E]]]]|(C & C' & E)]; try (exfalso; exact (X r eq_refl)); try (exfalso; exact (works_fail X)); injection E as ->.
    + destruct (m k) as [[[cr lo] i]|]; cbn [holds] in HO; [destruct HO as (b & B & _); congruence|]. auto.
    + destruct (m k) as [[[cr lo] i]|]; cbn [holds] in HO; [|congruence]. split; [reflexivity|]. apply (stores_put s); auto.
Qed.
Lemma serve_runs : forall l s m s', stores s m -> runs c e dir s l s' -> Forall (usable e dir) (map fst l) ->
  (forall l1 h r l2, l = l1 ++ (h, r) :: l2 -> r = fst (serve c norm (serve_all c norm m (map fst l1)) h)) /\
  stores s' (serve_all c norm m (map fst l)).
Proof.
  intros l s m s' S R. revert m S. induction R as [s|s h r s1 l s2 ST R IH]; intros m S U.
  - split; [intros [|] ? ? ? E; discriminate|exact S].
  - cbn in U. inversion U as [|? ? U1 U2]; subst. destruct (serve_step _ _ _ _ _ S U1 ST) as [-> S1].
    destruct (IH _ S1 U2) as [A B]. split; [|exact B].
    intros [|[h1 r1] l1] h' r' l2 E.
    + injection E as E1 E2 _. subst h'. symmetry. exact E2.
    + injection E as E1 E2 E3. subst. cbn. eapply A. reflexivity.
Qed.
Lemma stores_empty : stores empty_fs no_sessions.
Proof. split; [split; cbn; intros; discriminate|]. intros k P. reflexivity. Qed.

(* every call ends, unless the process dies *)
Lemma write_total {A} (k : bool -> prog A) n : forall data s, exists s' , steps e works s (WriteAt n (length (f_data s n)) data k) s' (k true).
Proof.
  intros data s. destruct data as [|x data].
  - exists s. eapply Steps_1 with (h := How 0); [discriminate|reflexivity|apply Steps_0].
  - eexists. eapply Steps_1 with (h := How (length data)); [discriminate|reflexivity|].
    rewrite skipn_all2 by (cbn; lia). eapply Steps_1 with (h := How 0); [discriminate|reflexivity|apply Steps_0].
Qed.
Lemma steps_trans {A} ok s (p : prog A) s1 p1 s2 p2 : steps e ok s p s1 p1 -> steps e ok s1 p1 s2 p2 -> steps e ok s p s2 p2.
Proof. intros H1 H2. induction H1; [exact H2|]. eapply Steps_1; eauto. Qed.
Lemma save_total {A} (k : bool -> prog A) p data s : exists s' b, steps e works s (WriteFile p data k) s' (k b).
Proof.
  unfold WriteFile. destruct (fine e p) eqn:F.
  - destruct (f_dir s (locate (e_cwd e) p)) as [n|] eqn:D.
    + set (s1 := set_data s n []). destruct (write_total k n data s1) as [s2 H].
      assert (Z : f_data s1 n = []) by (cbn; rewrite Nat.eqb_refl; reflexivity). rewrite Z in H. cbn [length] in H.
      exists s2, true. eapply Steps_1 with (h := How 0); [discriminate|cbn; rewrite F, D; reflexivity|exact H].
    + set (n := f_next s). set (s1 := set_data (set_dir (MkFs (f_dir s) (f_data s) (S n)) (locate (e_cwd e) p) (Some n)) n []).
      destruct (write_total k n data s1) as [s2 H].
      assert (Z : f_data s1 n = []) by (cbn; rewrite Nat.eqb_refl; reflexivity). rewrite Z in H. cbn [length] in H.
      exists s2, true. eapply Steps_1 with (h := How 0); [discriminate|cbn; rewrite F, D; reflexivity|exact H].
  - exists s, false. eapply Steps_1 with (h := How 0); [discriminate|cbn; rewrite F; reflexivity|apply Steps_0].
Qed.
Lemma hook_total s h : exists s' r, steps e works s (code c dir h) s' (Ret r).
Proof.
  destruct h as [k cr lo i|k now|k]; cbn [code].
  - unfold OnSessionCreated, Save. destruct (marshal c _) as [b|].
    + destruct (save_total (done (I := I)) (filePath dir k) b s) as (s' & r & H). exists s'. eexists. exact H.
    + exists s. eexists. apply Steps_0.
  - unfold OnSessionLookup. destruct (stat_of e s (filePath dir k)) eqn:ST.
    2-3: (exists s; eexists; eapply Steps_1 with (h := How 0); [discriminate|reflexivity|]; rewrite ST; apply Steps_0).
    set (r := if fine e (filePath dir k) then match f_dir s (locate (e_cwd e) (filePath dir k)) with Some n => Some (f_data s n) | None => None end else None).
    destruct (match r with Some b => unmarshal c b | None => None end) as [f|] eqn:R.
    + destruct (marshal c (MkSfile (sf_creation f) now (sf_info f))) as [b'|] eqn:M.
      * match goal with |- context [Stat _ ?kk] => set (K := kk) end.
        assert (exists s' x, steps e works s (WriteFile (filePath dir k) b'
            (fun ok : bool => if ok then Ret (RFound (sf_creation f) (sf_lookup f) (sf_info f)) else Ret RError)) s' (Ret x)) as (s' & x & H).
        { destruct (save_total (fun ok : bool => if ok then Ret (RFound (sf_creation f) (sf_lookup f) (sf_info f)) else Ret RError) (filePath dir k) b' s) as (s' & [|] & H);
          exists s'; eexists; exact H. }
        exists s', x. eapply Steps_1 with (h := How 0); [discriminate|reflexivity|]. rewrite ST. subst K. cbv beta iota.
        eapply Steps_1 with (h := How 0); [discriminate|reflexivity|]. fold r. rewrite R. unfold Save. rewrite M. exact H.
      * exists s. eexists. eapply Steps_1 with (h := How 0); [discriminate|reflexivity|]. rewrite ST.
        eapply Steps_1 with (h := How 0); [discriminate|reflexivity|]. fold r. rewrite R. unfold Save. rewrite M. apply Steps_0.
    + exists s. eexists. eapply Steps_1 with (h := How 0); [discriminate|reflexivity|]. rewrite ST.
      eapply Steps_1 with (h := How 0); [discriminate|reflexivity|]. fold r. rewrite R. apply Steps_0.
  - unfold OnSessionClosed. destruct (fine e (filePath dir k)) eqn:F; [destruct (f_dir s (locate (e_cwd e) (filePath dir k))) eqn:D|];
    (eexists; eexists; eapply Steps_1 with (h := How 0); [discriminate|cbn; rewrite F, ?D; reflexivity|apply Steps_0]).
Qed.
Lemma runs_total : forall hs s, exists rs s', length rs = length hs /\ runs c e dir s (combine hs rs) s'.
Proof.
  induction hs as [|h hs IH]; intros s; [exists [], s; split; [reflexivity|constructor]|].
  destruct (hook_total s h) as (s1 & r & H). destruct (IH s1) as (rs & s' & L & R). exists (r :: rs), s'. split; [cbn; congruence|].
  cbn. econstructor; eauto.
Qed.
End Map.

(* ----- C47 ----- *)
Theorem manager_map {I} : forall (c : codec I) norm e dir l s', faithful c norm -> dir <> [] ->
  runs c e dir empty_fs l s' -> Forall (usable e dir) (map fst l) ->
  forall l1 h r l2, l = l1 ++ (h, r) :: l2 -> r = fst (serve c norm (serve_all c norm no_sessions (map fst l1)) h).
Proof. intros c norm e dir l s' FA ND R U. apply (proj1 (serve_runs c norm FA e dir ND l _ _ _ (stores_empty c e dir) R U)). Qed.
Theorem manager_total {I} : forall (c : codec I) e dir s hs, exists rs s', length rs = length hs /\ runs c e dir s (combine hs rs) s'.
Proof. intros. apply runs_total. Qed.

Lemma serve_all_app {I} (c : codec I) norm l1 : forall l2 m, serve_all c norm m (l1 ++ l2) = serve_all c norm (serve_all c norm m l1) l2.
Proof. induction l1; intros; cbn; [reflexivity|apply IHl1]. Qed.
Lemma serve_keeps {I} (c : codec I) norm k cr i : forall hs lo m, m k = Some (cr, lo, i) -> Forall (left_alone k) hs ->
  serve_all c norm m hs k = Some (cr, last_lookup k lo hs, i).
Proof.
  induction hs as [|h hs IH]; intros lo m M F; [exact M|]. inversion F as [|? ? A F']; subst. cbn [serve_all].
  destruct h as [k' cr' lo' i'|k' now|k']; cbn [last_lookup serve left_alone] in *.
  - apply IH; [|exact F']. destruct (marshal c _); cbn; [|exact M]. unfold put. rewrite bytes_eqb_ne by congruence. exact M.
  - apply IH; [|exact F']. destruct (bytes_eqb_spec k' k) as [->|N].
    + rewrite M. cbn. unfold put. rewrite bytes_eqb_refl. reflexivity.
    + destruct (m k') as [[[a b] d]|]; cbn; [|exact M]. unfold put. rewrite bytes_eqb_ne by congruence. exact M.
  - apply IH; [|exact F']. destruct (m k'); cbn; [|exact M]. unfold put. rewrite bytes_eqb_ne by congruence. exact M.
Qed.
(* a created session is found until it is closed *)
Theorem manager_found {I} : forall (c : codec I) norm e dir h1 k cr lo i h2 now r l3 s', faithful c norm -> dir <> [] ->
  runs c e dir empty_fs (h1 ++ (HCreate k cr lo i, RDone) :: h2 ++ (HLookup k now, r) :: l3) s' ->
  Forall (usable e dir) (map fst (h1 ++ (HCreate k cr lo i, RDone) :: h2 ++ (HLookup k now, r) :: l3)) ->
  Forall (left_alone k) (map fst h2) ->
  r = RFound cr (last_lookup k lo (map fst h2)) (norm i).
Proof.
  intros c norm e dir h1 k cr lo i h2 now r l3 s' FA ND R U A.
  pose proof (manager_map c norm e dir _ s' FA ND R U) as M.
  pose proof (M h1 (HCreate k cr lo i) RDone _ eq_refl) as E1.
  pose proof (M (h1 ++ (HCreate k cr lo i, RDone) :: h2) (HLookup k now) r l3 ltac:(rewrite <- app_assoc; reflexivity)) as E2.
  cbn [serve] in E1. rewrite map_app, serve_all_app in E2. cbn [map fst serve_all] in E2.
  set (m := serve_all c norm no_sessions (map fst h1)) in *. cbn [serve] in E2.
  destruct (marshal c (MkSfile cr lo i)); [|discriminate]. cbn [snd] in E2.
  rewrite (serve_keeps c norm k cr (norm i) _ lo) in E2; [exact E2| |exact A]. unfold put. rewrite bytes_eqb_refl. reflexivity.
Qed.
(* a closed session, or one never created, is not *)
Lemma serve_none {I} (c : codec I) norm k : forall hs m, m k = None -> (forall h, In h hs -> not_created k h) ->
  serve_all c norm m hs k = None.
Proof.
  induction hs as [|h hs IH]; intros m M F; [exact M|]. cbn [serve_all]. apply IH; [|intros h' H'; apply F; right; exact H'].
  specialize (F h (or_introl eq_refl)). destruct h as [k' cr' lo' i'|k' now|k']; cbn [serve].
  - destruct (marshal c _); cbn; [|exact M]. unfold put. rewrite bytes_eqb_ne by congruence. exact M.
  - destruct (bytes_eqb_spec k' k) as [->|N]; [rewrite M; exact M|]. destruct (m k') as [[[a b] d]|]; cbn; [|exact M]. unfold put. rewrite bytes_eqb_ne by congruence. exact M.
  - destruct (bytes_eqb_spec k' k) as [->|N]; [rewrite M; exact M|]. destruct (m k'); cbn; [|exact M]. unfold put. rewrite bytes_eqb_ne by congruence. exact M.
Qed.
Theorem manager_gone {I} : forall (c : codec I) norm e dir l k now r l3 s', faithful c norm -> dir <> [] ->
  runs c e dir empty_fs (l ++ (HLookup k now, r) :: l3) s' -> Forall (usable e dir) (map fst (l ++ (HLookup k now, r) :: l3)) ->
  (exists h1 h2, map fst l = h1 ++ HClose k :: h2 /\ forall h, In h h2 -> not_created k h) \/
  (forall h, In h (map fst l) -> not_created k h) ->
  r = RNone.
Proof.
  intros c norm e dir l k now r l3 s' FA ND R U H.
  pose proof (manager_map c norm e dir _ s' FA ND R U l (HLookup k now) r l3 eq_refl) as E. cbn [serve] in E.
  assert (N : serve_all c norm no_sessions (map fst l) k = None).
  { destruct H as [(h1 & h2 & EQ & F)|F].
    - rewrite EQ, serve_all_app. cbn [serve_all]. apply serve_none; [|exact F]. cbn [serve].
      destruct (serve_all c norm no_sessions h1 k) as [v|] eqn:V; cbn; [unfold put; rewrite bytes_eqb_refl; reflexivity|exact V].
    - apply serve_none; [reflexivity|exact F]. }
  rewrite N in E. exact E.
Qed.
