(* Examples for the theorems on the default session manager: a codec for sessions whose info is a number,
   where numbers lose their last bit on the way (as large ones do in JSON); functions that run hooks. *)
From Coq Require Import Strings.String.
From Coq Require Import List Arith NArith ZArith Lia Bool.
From Verif Require Import BaseBytes BaseConc ModelMessage ModelPath ModelFiles SpecFiles.
Import ListNotations.
Open Scope nat_scope.

Fixpoint enc_pos (p : positive) : bytes := match p with xH => [x2e] | xO q => x30 :: enc_pos q | xI q => x31 :: enc_pos q end.
Definition enc (z : Z) : bytes := match z with Z0 => [x7a] | Zpos p => x2b :: enc_pos p | Zneg p => x2d :: enc_pos p end.
Fixpoint dec_pos (b : bytes) : option (positive * bytes) :=
  match b with
  | [] => None
  | c :: b' => if Byte.eqb c x2e then Some (xH, b')
               else if Byte.eqb c x30 then let? r := dec_pos b' in Some (xO (fst r), snd r)
               else if Byte.eqb c x31 then let? r := dec_pos b' in Some (xI (fst r), snd r) else None
  end.
Definition dec (b : bytes) : option (Z * bytes) :=
  match b with
  | [] => None
  | c :: b' => if Byte.eqb c x7a then Some (Z0, b')
               else if Byte.eqb c x2b then let? r := dec_pos b' in Some (Zpos (fst r), snd r)
               else if Byte.eqb c x2d then let? r := dec_pos b' in Some (Zneg (fst r), snd r) else None
  end.
Definition toy_norm (i : Z) : Z := (2 * (i / 2))%Z.
Definition toy : codec Z :=
  MkCodec (fun f => Some (enc (sf_creation f) ++ enc (sf_lookup f) ++ enc (sf_info f / 2)))
    (fun b => let? r1 := dec b in let? r2 := dec (snd r1) in let? r3 := dec (snd r2) in
              match snd r3 with [] => Some (MkSfile (fst r1) (fst r2) (2 * fst r3)%Z) | _ => None end).

Lemma dec_enc_pos p r : dec_pos (enc_pos p ++ r) = Some (p, r).
Proof. induction p; cbn; rewrite ?IHp; reflexivity. Qed.
Lemma dec_enc z r : dec (enc z ++ r) = Some (z, r).
Proof. destruct z; cbn; rewrite ?dec_enc_pos; reflexivity. Qed.
Lemma dec_pos_more b r : forall b' p, dec_pos b = Some (p, b') -> dec_pos (b ++ r) = Some (p, b' ++ r).
Proof.
  induction b as [|c b IH]; intros b' p H; cbn in *; [discriminate|].
  destruct (Byte.eqb c x2e); [injection H as <- <-; reflexivity|].
  destruct (Byte.eqb c x30); [destruct (dec_pos b) as [[q t]|]; [injection H as <- <-; rewrite (IH t q eq_refl); reflexivity|discriminate]|].
  destruct (Byte.eqb c x31); [destruct (dec_pos b) as [[q t]|]; [injection H as <- <-; rewrite (IH t q eq_refl); reflexivity|discriminate]|discriminate].
Qed.
Lemma dec_more b r b' z : dec b = Some (z, b') -> dec (b ++ r) = Some (z, b' ++ r).
Proof.
  destruct b as [|c b]; cbn; [discriminate|]. destruct (Byte.eqb c x7a); [intros [= <- <-]; reflexivity|].
  destruct (Byte.eqb c x2b); [destruct (dec_pos b) as [[q t]|] eqn:E; [intros [= <- <-]; rewrite (dec_pos_more _ r _ _ E); reflexivity|discriminate]|].
  destruct (Byte.eqb c x2d); [destruct (dec_pos b) as [[q t]|] eqn:E; [intros [= <- <-]; rewrite (dec_pos_more _ r _ _ E); reflexivity|discriminate]|discriminate].
Qed.
Theorem toy_faithful : faithful toy toy_norm.
Proof.
  split.
  - intros f b [= <-]. cbn. rewrite dec_enc. cbn. rewrite dec_enc. cbn. rewrite <- (app_nil_r (enc (sf_info f / 2))), dec_enc. reflexivity.
  - intros b f t _ _. eexists. reflexivity.
  - intros b f. unfold toy, unmarshal. destruct (dec b) as [[z1 r1]|]; [|discriminate]. cbn [fst snd]. destruct (dec r1) as [[z2 r2]|]; [|discriminate]. cbn [fst snd].
    destruct (dec r2) as [[z3 r3]|]; [|discriminate]. cbn [fst snd]. destruct r3; [|discriminate]. intros E.
    assert (F : sf_info f = (2 * z3)%Z) by (apply (f_equal (option_map sf_info)) in E; cbn [option_map sf_info] in E; congruence).
    rewrite F. unfold toy_norm. rewrite (Z.mul_comm 2 z3), Z.div_mul by lia. lia.
  - intros f b b1 b2 [= <-] E N. cbn. destruct (dec b1) as [[z1 r1]|] eqn:E1; [|reflexivity]. cbn. destruct (dec r1) as [[z2 r2]|] eqn:E2; [|reflexivity]. cbn.
    destruct (dec r2) as [[z3 r3]|] eqn:E3; [|reflexivity]. cbn. destruct r3; [|reflexivity]. exfalso.
    pose proof (dec_more _ b2 _ _ E1) as F1. rewrite <- E, dec_enc in F1. injection F1 as _ F1.
    pose proof (dec_more _ b2 _ _ E2) as F2. rewrite <- F1, dec_enc in F2. injection F2 as _ F2.
    pose proof (dec_more _ b2 _ _ E3) as F3. rewrite <- F2, <- (app_nil_r (enc (sf_info f / 2))), dec_enc in F3. injection F3 as _ F3. cbn in F3. congruence.
Qed.

(* an environment where everything can be accessed *)
Definition everywhere : env := MkEnv [] (fun _ => Fine).
Definition key (s : string) : bytes := list_byte_of_string s.

(* run a program to its end *)
Fixpoint finish {A} (fuel : nat) (e : env) (s : fs) (pr : prog A) : option (fs * A) :=
  match pr, fuel with
  | Ret a, _ => Some (s, a)
  | _, 0 => None
  | _, S fuel' => let? r := step e s pr (How 5) in finish fuel' e (fst r) (snd r)
  end.
Lemma finish_steps {A} e : forall fuel s (pr : prog A) s' a, finish fuel e s pr = Some (s', a) -> steps e works s pr s' (Ret a).
Proof.
  induction fuel as [|fuel IH]; intros s pr s' a H.
  - destruct pr; cbn in H; try discriminate. injection H as <- <-. apply Steps_0.
  - destruct pr; cbn [finish] in H; try (injection H as <- <-; apply Steps_0);
    (match type of H with (let? r := ?x in _) = _ => destruct x as [[s1 p1]|] eqn:E; [|discriminate] end;
     eapply Steps_1 with (h := How 5); [discriminate|exact E|apply IH, H]).
Qed.
Fixpoint run_all {I} (fuel : nat) (c : codec I) (e : env) (dir : bytes) (s : fs) (hs : list (hook I)) : option (list (hook I * result I) * fs) :=
  match hs with
  | [] => Some ([], s)
  | h :: hs' => let? r := finish fuel e s (code c dir h) in let? q := run_all fuel c e dir (fst r) hs' in Some ((h, snd r) :: fst q, snd q)
  end.
Lemma run_all_runs {I} fuel (c : codec I) e dir : forall hs s l s', run_all fuel c e dir s hs = Some (l, s') -> runs c e dir s l s'.
Proof.
  induction hs as [|h hs IH]; intros s l s' H; cbn [run_all] in H; [injection H as <- <-; constructor|].
  destruct (finish fuel e s (code c dir h)) as [[s1 r]|] eqn:E; [|discriminate]. cbn [fst snd] in H.
  destruct (run_all fuel c e dir s1 hs) as [[l1 s2]|] eqn:E1; [|discriminate]. cbn [fst snd] in H. injection H as <- <-.
  econstructor; [apply (finish_steps e fuel), E|apply IH, E1].
Qed.
Lemma ran {I} fuel (c : codec I) e dir s hs l : option_map fst (run_all fuel c e dir s hs) = Some l -> exists s', runs c e dir s l s'.
Proof.
  destruct (run_all fuel c e dir s hs) as [[l1 s1]|] eqn:E; [|discriminate]. intros [= <-]. exists s1. eapply run_all_runs, E.
Qed.
(* play events; what the calls have returned by then *)
Fixpoint play {I} (c : codec I) (e : env) (dir : bytes) (w : world I) (evs : list (fev I)) : option (world I) :=
  match evs with [] => Some w | ev :: evs' => let? w1 := fstep c e dir w ev in play c e dir w1 evs' end.
Fixpoint called {I} (evs : list (fev I)) : list (hook I) := match evs with [] => [] | FCall h :: evs' => h :: called evs' | _ :: evs' => called evs' end.
Definition returned {I} (pr : prog (result I)) : option (result I) := match pr with Ret r => Some r | _ => None end.
Definition never_fail {I} (ev : fev I) : bool := match ev with FStep _ Fail => false | _ => true end.
Lemma play_disturbed {I} (c : codec I) e dir : forall evs w w', play c e dir w evs = Some w' -> forallb never_fail evs = true ->
  disturbed c e dir works w (called evs) w'.
Proof.
  induction evs as [|ev evs IH]; intros w w' H F; cbn [play] in H; [injection H as <-; constructor|].
  destruct (fstep c e dir w ev) as [w1|] eqn:E; [|discriminate]. cbn in F. apply andb_true_iff in F. destruct F as [F1 F2].
  destruct ev as [h|i h]; cbn [called].
  - econstructor; [exact E|apply IH; assumption].
  - econstructor; [|exact E|apply IH; assumption]. intros ->. discriminate.
Qed.
Lemma played {I} (c : codec I) e dir s evs rs : option_map (fun w => map returned (w_ts w)) (play c e dir (idle s) evs) = Some rs -> forallb never_fail evs = true ->
  exists w, disturbed c e dir works (idle s) (called evs) w /\ map returned (w_ts w) = rs.
Proof.
  destruct (play c e dir (idle s) evs) as [w|] eqn:E; [|discriminate]. intros [= <-] F. exists w. split; [|reflexivity]. apply play_disturbed; assumption.
Qed.
