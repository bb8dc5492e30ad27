(* The default session manager: overlapping calls for different sessions; aliases; no access. *)
From Coq Require Import List Arith NArith ZArith Lia Bool.
From Verif Require Import BaseBytes BaseConc ModelMessage ModelPath ModelFiles SpecFiles ProofPath ProofFiles ProofFiles2 ProofFiles3.
Import ListNotations.
Open Scope nat_scope.
#[local] Arguments filePath : simpl never.
#[local] Arguments locate : simpl never.
#[local] Arguments stat_of : simpl never.
#[local] Arguments fine : simpl never.

(* a file by number and contents *)
Definition entry (s : fs) (L : loc) : option (nat * bytes) := match f_dir s L with Some n => Some (n, f_data s n) | None => None end.
Lemma entry_contents s L : contents s L = option_map snd (entry s L).
Proof. unfold contents, entry. destruct (f_dir s L); reflexivity. Qed.
(* the program, with nothing going wrong, ends with result r and contents P of the file at L *)
Inductive leads {A} (e : env) (L : loc) (r : A) (P : option bytes -> Prop) : option (nat * bytes) -> prog A -> Prop :=
| Le_ret o : P (option_map snd o) -> leads e L r P o (Ret r)
| Le_stat o p k : locate (e_cwd e) p = L -> leads e L r P o (k (match o with Some _ => StExists | None => StNotExist end)) -> leads e L r P o (Stat p k)
| Le_read o p k : locate (e_cwd e) p = L -> leads e L r P o (k (option_map snd o)) -> leads e L r P o (ReadFile p k)
| Le_open o p k : locate (e_cwd e) p = L -> (forall n, leads e L r P (Some (n, [])) (k (Some n))) -> leads e L r P o (OpenTrunc p k)
| Le_write n off b data k : off = length b -> leads e L r P (Some (n, b ++ data)) (k true) -> leads e L r P (Some (n, b)) (WriteAt n off data k)
| Le_remove o p k : locate (e_cwd e) p = L -> leads e L r P None (k (match o with Some _ => true | None => false end)) -> leads e L r P o (Remove p k).

Lemma step_leads {A} e L (r : A) P s pr h s' pr' : e_access e L = Fine -> leads e L r P (entry s L) pr -> works h ->
  step e s pr h = Some (s', pr') -> leads e L r P (entry s' L) pr'.
Proof.
  intros AC H W E. remember (entry s L) as o eqn:O. destruct h as [m|]; [|exfalso; exact (works_fail W)].
  destruct H as [o Q|o p k HL K|o p k HL K|o p k HL K|n off b data k HO K|o p k HL K]; cbn in E.
  - discriminate.
  - injection E as E1 E2. subst s' pr'. rewrite (stat_contents e s p L HL AC), entry_contents in *. rewrite <- O. destruct o; exact K.
  - injection E as E1 E2. subst s' pr'. rewrite (read_contents e s p L HL AC), entry_contents in *. rewrite <- O. exact K.
  - unfold fine in E. rewrite HL, AC in E. destruct (f_dir s L) as [n|] eqn:D; injection E as E1 E2; subst s' pr'.
    + unfold entry. cbn. rewrite D, Nat.eqb_refl. apply K.
    + unfold entry. cbn. destruct (loc_eqb_spec L L); [|congruence]. rewrite Nat.eqb_refl. apply K.
  - unfold entry in O. destruct (f_dir s L) as [n'|] eqn:D; [|discriminate]. injection O as <- ->. 
    destruct data as [|x data].
    + injection E as E1 E2. subst s' pr'. unfold entry. rewrite D. rewrite app_nil_r in K. exact K.
    + set (y := x :: data) in *. injection E as E1 E2. subst s' pr' off. unfold entry. cbn [f_dir f_data set_data]. rewrite D, Nat.eqb_refl, splice_end.
      change (x :: firstn m data) with (firstn (S m) y). change (skipn m data) with (skipn (S m) y).
      apply Le_write; [rewrite app_length; reflexivity|]. rewrite <- app_assoc, firstn_skipn. exact K.
  - unfold fine in E. rewrite HL, AC in E. unfold entry in O. destruct (f_dir s L) as [n|] eqn:D; injection E as E1 E2; subst s' pr' o.
    + unfold entry. cbn. destruct (loc_eqb_spec L L); [exact K|congruence].
    + unfold entry. rewrite D. exact K.
Qed.
Lemma step_entry {A} e s (pr : prog A) h s' pr' L own : wf s -> only e L own pr -> safe s L own -> step e s pr h = Some (s', pr') ->
  forall l, l <> L -> entry s' l = entry s l.
Proof.
  intros W O F E l NL. destruct O as [own a|own p k HL K|own p k HL K|own p k HL K0 K|own n off data k HN K|own p k HL K]; cbn in E.
  - discriminate.
  - destruct h; injection E as E1 E2; subst; reflexivity.
  - destruct h; injection E as E1 E2; subst; reflexivity.
  - rewrite HL in E. destruct h; [|injection E as E1 E2; subst; reflexivity]. destruct (fine e p); [|injection E as E1 E2; subst; reflexivity].
    destruct (f_dir s L) as [m|] eqn:D; injection E as E1 E2; subst s' pr'; unfold entry; cbn.
    + destruct (f_dir s l) as [x|] eqn:Dl; [|reflexivity]. destruct (Nat.eqb_spec x m) as [->|]; [|reflexivity]. exfalso. apply NL, (proj2 W l L m Dl D).
    + destruct (loc_eqb_spec l L); [contradiction|]. destruct (f_dir s l) as [x|] eqn:Dl; [|reflexivity]. pose proof (proj1 W _ _ Dl).
      destruct (Nat.eqb_spec x (f_next s)); [lia|reflexivity].
  - destruct h; [|injection E as E1 E2; subst; reflexivity]. destruct data as [|x data]; injection E as E1 E2; subst; [reflexivity|].
    unfold entry; cbn. destruct (f_dir s l) as [y|] eqn:Dl; [|reflexivity]. destruct (Nat.eqb_spec y n) as [->|]; [|reflexivity].
    exfalso. apply NL, (proj2 (F n HN) l Dl).
  - rewrite HL in E. destruct h; [|injection E as E1 E2; subst; reflexivity]. destruct (fine e p); [|injection E as E1 E2; subst; reflexivity].
    destruct (f_dir s L) as [m|] eqn:D; injection E as E1 E2; subst s' pr'; [|reflexivity]. unfold entry; cbn. destruct (loc_eqb_spec l L); [contradiction|reflexivity].
Qed.

Section Overlap.
Context {I : Type} (c : codec I) (norm : I -> I) (FA : faithful c norm) (e : env) (dir : bytes) (ND : dir <> []).
Notation file k := (file_of (e_cwd e) dir k).
(* contents o stand for the session v *)
Definition means (v : option (Z * Z * I)) (o : option bytes) : Prop :=
  match v with None => o = None | Some (cr, lo, i) => exists b, o = Some b /\ unmarshal c b = Some (MkSfile cr lo i) end.
Lemma means_holds s L v : holds c s L v <-> means v (contents s L).
Proof. unfold holds, means. destruct v as [[[cr lo] i]|]; reflexivity. Qed.
Lemma code_leads m h o : usable e dir h -> means (m (hook_key h)) (option_map snd o) ->
  leads e (file (hook_key h)) (fst (serve c norm m h)) (means (snd (serve c norm m h) (hook_key h))) o (code c dir h).
Proof.
  intros (P & AC & T) M. destruct h as [k cr lo i|k now|k]; cbn [hook_key code serve] in *.
  - unfold OnSessionCreated, Save. destruct (marshal c (MkSfile cr lo i)) as [b|] eqn:E.
    + apply Le_open; [reflexivity|]. intros n. apply Le_write; [reflexivity|]. cbn. apply Le_ret. cbn. unfold put. rewrite bytes_eqb_refl. cbn.
      exists b. split; [reflexivity|]. apply (fa_round _ _ FA _ _ E).
    + apply Le_ret. exact M.
  - unfold OnSessionLookup. apply Le_stat; [reflexivity|]. destruct (m k) as [[[cr lo] i]|] eqn:V.
    + destruct M as (b & M & U). destruct o as [[n b']|]; [|discriminate]. cbn in M. injection M as ->. unfold Parse. apply Le_read; [reflexivity|].
      cbn [option_map snd]. rewrite U. cbn [sf_creation sf_info sf_lookup].
      destruct (fa_again _ _ FA _ _ now U T) as [b' M]. unfold Save. cbn [sf_creation sf_info] in M. rewrite M.
      apply Le_open; [reflexivity|]. intros n'. apply Le_write; [reflexivity|]. apply Le_ret. cbn. unfold put. rewrite bytes_eqb_refl. cbn.
      exists b'. split; [reflexivity|]. pose proof (fa_round _ _ FA _ _ M) as R. cbn in R. rewrite R. pose proof (fa_norm _ _ FA _ _ U) as N. cbn in N. rewrite N. reflexivity.
    + destruct o as [[n b']|]; [discriminate|]. apply Le_ret. cbn. rewrite V. reflexivity.
  - unfold OnSessionClosed. apply Le_remove; [reflexivity|]. destruct (m k) as [[[cr lo] i]|] eqn:V.
    + destruct M as (b & M & U). destruct o as [[n b']|]; [|discriminate]. apply Le_ret. cbn. unfold put. rewrite bytes_eqb_refl. reflexivity.
    + destruct o as [[n b']|]; [discriminate|]. apply Le_ret. cbn. rewrite V. reflexivity.
Qed.

Definition under_way (s0 : fs) (m : smap I) (hs : list (hook I)) (w : world I) : Prop :=
  wf (w_fs w) /\ length (w_ts w) = length hs /\
  (forall l, ~ In l (map (fun h => file (hook_key h)) hs) -> entry (w_fs w) l = entry s0 l) /\
  forall i h pr, nth_error hs i = Some h -> nth_error (w_ts w) i = Some pr ->
    (exists own, only e (file (hook_key h)) own pr /\ safe (w_fs w) (file (hook_key h)) own) /\
    leads e (file (hook_key h)) (fst (serve c norm m h)) (means (snd (serve c norm m h) (hook_key h))) (entry (w_fs w) (file (hook_key h))) pr.
Lemma disturbed_under_way s0 m : stores c e dir s0 m -> forall w hs w', disturbed c e dir works w hs w' -> forall hs0,
  under_way s0 m hs0 w -> Forall (usable e dir) (hs0 ++ hs) -> NoDup (map hook_key (hs0 ++ hs)) -> under_way s0 m (hs0 ++ hs) w'.
Proof.
  intros S w hs w' D. induction D as [w|w h w1 hs w2 E D IH|w i h w1 hs w2 K E D IH]; intros hs0 UW US NDK.
  - rewrite app_nil_r. exact UW.
  - replace (hs0 ++ h :: hs) with ((hs0 ++ [h]) ++ hs) in * by (rewrite <- app_assoc; reflexivity). apply IH; [|exact US|exact NDK].
    cbn in E. injection E as E. subst w1. destruct UW as (W & LEN & ISO & TH).
    assert (UH : usable e dir h) by (rewrite Forall_forall in US; apply US; rewrite !in_app_iff; left; right; left; reflexivity).
    assert (FR : ~ In (file (hook_key h)) (map (fun h => file (hook_key h)) hs0)).
    { rewrite in_map_iff. intros (h' & EQ & IN). apply file_distinct in EQ; [|exact ND| |apply UH].
      - rewrite !map_app, <- app_assoc in NDK. cbn in NDK. apply NoDup_remove_2 in NDK. apply NDK. rewrite in_app_iff. left. rewrite <- EQ. apply in_map, IN.
      - rewrite Forall_forall in US. apply (US h'). rewrite !in_app_iff. auto. }
    split; [exact W|]. split; [cbn; rewrite !app_length, LEN; reflexivity|]. split.
    + intros l NI. apply ISO. intros IN. apply NI. rewrite map_app, in_app_iff. auto.
    + cbn [w_fs w_ts]. intros i h' pr Hh Hp. apply nth_error_snoc_some in Hh. apply nth_error_snoc_some in Hp.
      destruct Hh as [Hh|[Hi ->]]; destruct Hp as [Hp|[Hi' ->]].
      * apply (TH i h' pr Hh Hp).
      * exfalso. assert (i < length hs0) by (apply nth_error_Some; congruence). lia.
      * exfalso. assert (i < length (w_ts w)) by (apply nth_error_Some; congruence). lia.
      * split; [exists (fun _ => False); split; [apply code_only|apply none_safe]|].
        rewrite (ISO _ FR). apply code_leads; [exact UH|]. rewrite <- entry_contents. apply means_holds, stores_holds; [exact S|apply UH].
  - apply IH; [|exact US|exact NDK]. clear IH D. cbn in E. destruct (nth_error (w_ts w) i) as [pr|] eqn:Hi; [|discriminate].
    destruct (step e (w_fs w) pr h) as [[s pr']|] eqn:ST; [|discriminate]. injection E as E. subst w1.
    destruct UW as (W & LEN & ISO & TH).
    destruct (nth_error hs0 i) as [h0|] eqn:Hh0; [|apply nth_error_None in Hh0; assert (i < length (w_ts w)) by (apply nth_error_Some; congruence); lia].
    destruct (TH i h0 pr Hh0 Hi) as ((own & O & F) & LE).
    assert (U0 : usable e dir h0) by (rewrite Forall_forall in US; apply US; rewrite in_app_iff; left; apply nth_error_In in Hh0; exact Hh0).
    destruct (step_isolated _ _ _ _ _ _ _ _ W O F ST) as (W1 & _ & OS & X).
    pose proof (step_entry _ _ _ _ _ _ _ _ W O F ST) as SE.
    split; [exact W1|]. split; [cbn; rewrite set_nth_length; exact LEN|]. split.
    + intros l NI. cbn. rewrite SE; [apply ISO, NI|]. intros ->. apply NI. apply nth_error_In in Hh0. apply in_map_iff. eauto.
    + cbn [w_fs w_ts]. intros j h' prj Hh Hp. apply set_nth_lookup in Hp. destruct Hp as [[-> ->]|[NJ Hp]].
      * rewrite Hh0 in Hh. injection Hh as <-. split; [exact OS|]. eapply step_leads; [apply U0|exact LE|exact K|exact ST].
      * destruct (TH j h' prj Hh Hp) as ((ownj & Oj & Fj) & LEj). split; [exists ownj; split; [exact Oj|apply X, Fj]|].
        rewrite SE; [exact LEj|]. intros EQ. apply file_distinct in EQ; [|exact ND| |apply U0].
        -- assert (HN : nth_error (map hook_key (hs0 ++ hs)) j = nth_error (map hook_key (hs0 ++ hs)) i).
           { rewrite !nth_error_map, !nth_error_app1 by (apply nth_error_Some; congruence). rewrite Hh, Hh0. cbn. congruence. }
           apply NJ. symmetry. apply (proj1 (NoDup_nth_error _) NDK j i); [|exact HN].
           rewrite map_length, app_length. assert (j < length hs0) by (apply nth_error_Some; congruence). lia.
        -- rewrite Forall_forall in US. apply (US h'). rewrite in_app_iff. left. apply nth_error_In in Hh. exact Hh.
Qed.
Lemma under_way_idle s m : stores c e dir s m -> under_way s m [] (idle s).
Proof. intros S. split; [apply S|]. split; [reflexivity|]. split; [reflexivity|]. intros [|] h pr E; discriminate. Qed.
Lemma ret_leads {A} L (r r' : A) P o : leads e L r P o (Ret r') -> r' = r /\ P (option_map snd o).
Proof. intros H. inversion H; subst; auto. Qed.
Lemma serve_other m h k : k <> hook_key h -> snd (serve c norm m h) k = m k.
Proof.
  intros N. destruct h as [k' cr lo i|k' now|k']; cbn in *.
  - destruct (marshal c _); cbn; [|reflexivity]. unfold put. rewrite bytes_eqb_ne by exact N. reflexivity.
  - destruct (m k') as [[[a b] d]|]; cbn; [|reflexivity]. unfold put. rewrite bytes_eqb_ne by exact N. reflexivity.
  - destruct (m k'); cbn; [|reflexivity]. unfold put. rewrite bytes_eqb_ne by exact N. reflexivity.
Qed.
Lemma serve_all_other k : forall hs m, ~ In k (map hook_key hs) -> serve_all c norm m hs k = m k.
Proof.
  induction hs as [|h hs IH]; intros m N; [reflexivity|]. cbn in *. rewrite IH by tauto. apply serve_other. intros E. apply N. left. auto.
Qed.
Lemma serve_own m m' h : m (hook_key h) = m' (hook_key h) ->
  fst (serve c norm m h) = fst (serve c norm m' h) /\ snd (serve c norm m h) (hook_key h) = snd (serve c norm m' h) (hook_key h).
Proof.
  intros E. destruct h as [k cr lo i|k now|k]; cbn in *.
  - destruct (marshal c _); cbn; [|auto]. unfold put. rewrite bytes_eqb_refl. auto.
  - rewrite E. destruct (m' k) as [[[a b] d]|] eqn:V; cbn; [|split; congruence]. unfold put. rewrite bytes_eqb_refl. auto.
  - rewrite E. destruct (m' k) eqn:V; cbn; [|split; congruence]. unfold put. rewrite bytes_eqb_refl. auto.
Qed.
Lemma serve_all_own m h1 h h2 : NoDup (map hook_key (h1 ++ h :: h2)) ->
  serve_all c norm m (h1 ++ h :: h2) (hook_key h) = snd (serve c norm m h) (hook_key h).
Proof.
  intros NK. rewrite map_app in NK. cbn in NK. apply NoDup_remove_2 in NK. rewrite in_app_iff in NK. rewrite serve_all_app. cbn [serve_all]. rewrite serve_all_other by tauto.
  apply serve_own. apply serve_all_other. tauto.
Qed.
Lemma overlap_stores s0 m hs w : stores c e dir s0 m -> disturbed c e dir works (idle s0) hs w -> Forall (usable e dir) hs -> NoDup (map hook_key hs) ->
  (forall i h r, nth_error hs i = Some h -> nth_error (w_ts w) i = Some (Ret r) -> r = fst (serve c norm m h)) /\
  ((forall i pr, nth_error (w_ts w) i = Some pr -> exists r, pr = Ret r) -> stores c e dir (w_fs w) (serve_all c norm m hs)).
Proof.
  intros S D US NK. destruct (disturbed_under_way s0 m S _ _ _ D [] (under_way_idle s0 m S) US NK) as (W & LEN & ISO & TH). cbn [app] in *. split.
  - intros i h r Hh Hp. destruct (TH i h _ Hh Hp) as [_ LE]. apply ret_leads in LE. apply LE.
  - intros ALL. split; [exact W|]. intros k P.
    change (holds c (w_fs w) (file k) (serve_all c norm m hs k)). apply means_holds.
    destruct (in_dec bytes_eq_dec k (map hook_key hs)) as [IN|NI].
    + apply in_map_iff in IN. destruct IN as (h & <- & IN). pose proof IN as IN'. apply in_split in IN'. destruct IN' as (h1 & h2 & EQ).
      apply In_nth_error in IN. destruct IN as [i Hi]. destruct (nth_error (w_ts w) i) as [pr|] eqn:Hp.
      2: { apply nth_error_None in Hp. assert (i < length hs) by (apply nth_error_Some; congruence). lia. }
      destruct (ALL i pr Hp) as [r ->]. destruct (TH i h _ Hi Hp) as [_ LE]. apply ret_leads in LE. destruct LE as [_ LE].
      rewrite <- entry_contents in LE. subst hs. rewrite serve_all_own by exact NK. exact LE.
    + rewrite serve_all_other by exact NI. rewrite entry_contents, ISO, <- entry_contents; [apply means_holds, stores_holds; assumption|].
      rewrite in_map_iff. intros (h & EQ & IN). apply NI. apply file_distinct in EQ; [|exact ND| |exact P].
      * rewrite <- EQ. apply in_map, IN.
      * rewrite Forall_forall in US. apply (US h IN).
Qed.
End Overlap.

Theorem overlap_distinct {I} : forall (c : codec I) norm e dir l s hs w, faithful c norm -> dir <> [] ->
  runs c e dir empty_fs l s -> Forall (usable e dir) (map fst l) ->
  disturbed c e dir works (idle s) hs w -> Forall (usable e dir) hs -> NoDup (map hook_key hs) ->
  (forall i h r, nth_error hs i = Some h -> nth_error (w_ts w) i = Some (Ret r) ->
     r = fst (serve c norm (serve_all c norm no_sessions (map fst l)) h)) /\
  ((forall i pr, nth_error (w_ts w) i = Some pr -> exists r, pr = Ret r) -> forall k now r s',
     usable e dir (HLookup (I := I) k now) -> runs c e dir (w_fs w) [(HLookup k now, r)] s' ->
     r = fst (serve c norm (serve_all c norm no_sessions (map fst l ++ hs)) (HLookup k now))).
Proof.
  intros c norm e dir l s hs w FA ND R U D US NK.
  pose proof (proj2 (serve_runs c norm FA e dir ND l _ _ _ (stores_empty c e dir) R U)) as S.
  destruct (overlap_stores c norm FA e dir ND s _ hs w S D US NK) as [A B]. split; [exact A|].
  intros ALL k now r s' UL R1. specialize (B ALL). rewrite serve_all_app.
  apply (proj1 (serve_runs c norm FA e dir ND _ _ _ _ B R1 ltac:(repeat constructor; apply UL)) [] (HLookup k now) r [] eq_refl).
Qed.

(* ----- other names of a session ----- *)
Lemma filePath_alias dir k : dir <> [] -> filePath dir (dot ++ slash :: k) = filePath dir k.
Proof.
  intros N. unfold filePath. cbn [Join]. destruct dir as [|x dir]; [congruence|]. cbn [bytes_eqb] in *.
  destruct (bytes_eqb (x :: dir) []) eqn:E; [destruct (bytes_eqb_spec (x :: dir) []); congruence|].
  rewrite <- app_assoc. cbn [join]. unfold Clean. cbn [app]. 
  assert (H : forall r, fold_left (clean_step r) (split (x :: dir ++ slash :: dot ++ slash :: k ++ suffix)) [] = fold_left (clean_step r) (split (x :: dir ++ slash :: k ++ suffix)) []).
  { intros r. change (x :: dir ++ slash :: dot ++ slash :: k ++ suffix) with ((x :: dir) ++ slash :: (dot ++ slash :: (k ++ suffix))).
    change (x :: dir ++ slash :: k ++ suffix) with ((x :: dir) ++ slash :: (k ++ suffix)). rewrite !split_app, !fold_left_app. reflexivity. }
  cbn [rooted]. rewrite H. reflexivity.
Qed.
Theorem manager_alias {I} : forall (c : codec I) norm e dir k cr lo i now r s', faithful c norm -> dir <> [] ->
  usable e dir (HCreate k cr lo i) -> in_years now ->
  runs c e dir empty_fs [(HCreate k cr lo i, RDone); (HLookup (dot ++ slash :: k) now, r)] s' ->
  r = RFound cr lo (norm i).
Proof.
  intros c norm e dir k cr lo i now r s' FA ND (P & AC & _) T R.
  assert (R' : runs c e dir empty_fs [(HCreate k cr lo i, RDone); (HLookup k now, r)] s').
  { inversion R as [|? ? ? s1 ? ? ST R1]; subst. apply runs_one in R1. econstructor; [exact ST|]. econstructor; [|constructor].
    assert (Q : code c dir (HLookup (dot ++ slash :: k) now) = code c dir (HLookup k now)) by (cbn [code]; unfold OnSessionLookup; rewrite filePath_alias by exact ND; reflexivity).
    rewrite <- Q. exact R1. }
  apply (manager_found c norm e dir [] k cr lo i [] now r [] s' FA ND R').
  - constructor; [|constructor; [|constructor]]; (split; [exact P|]; split; [exact AC|]); [exact Logic.I|exact T].
  - constructor.
Qed.
(* ----- no access to the file ----- *)
Theorem manager_no_access {I} : forall (c : codec I) e dir h s r s',
  e_access e (file_of (e_cwd e) dir (hook_key h)) <> Fine -> runs c e dir s [(h, r)] s' ->
  s' = s /\ r = refused (e_access e (file_of (e_cwd e) dir (hook_key h))) h.
Proof.
  intros c e dir h s r s' AC R. apply runs_one in R. destruct h as [k cr lo i|k now|k]; cbn [code hook_key refused] in *.
  - unfold OnSessionCreated, Save in R. destruct (marshal c _) as [b|]; [|apply ret_steps in R; destruct R as [-> E]; injection E as ->; auto].
    apply (save_cases e works _ _ _ _ _ _ (file_of (e_cwd e) dir k) eq_refl) in R.
    destruct R as [[_ E]|[[_ ST]|[X _]]]; [discriminate| |contradiction]. apply ret_steps in ST. destruct ST as [-> E]. injection E as ->. auto.
  - unfold OnSessionLookup in R. inversion R as [|? ? h s1 pr1 ? ? K E H1]; subst. destruct h; [|exfalso; exact (works_fail K)]. cbn in E. injection E as E1 E2. subst s1 pr1.
    unfold stat_of in H1. change (locate (e_cwd e) (filePath dir k)) with (file_of (e_cwd e) dir k) in H1.
    destruct (e_access e (file_of (e_cwd e) dir k)); [congruence| |]; apply ret_steps in H1; destruct H1 as [-> E]; injection E as ->; auto.
  - unfold OnSessionClosed in R. inversion R as [|? ? h s1 pr1 ? ? K E H1]; subst. destruct h; [|exfalso; exact (works_fail K)]. cbn in E.
    unfold fine in E. change (locate (e_cwd e) (filePath dir k)) with (file_of (e_cwd e) dir k) in E.
    destruct (e_access e (file_of (e_cwd e) dir k)); [congruence| |]; injection E as E1 E2; subst s1 pr1; apply ret_steps in H1; destruct H1 as [-> E]; injection E as ->; auto.
Qed.
