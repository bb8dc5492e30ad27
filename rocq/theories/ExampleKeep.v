(* Examples for the theorems on servers with the default session manager. *)
From Coq Require Import Strings.String.
From Coq Require Import List Arith NArith ZArith Lia Bool.
From Verif Require Import BaseBytes BaseConc ModelMessage ModelHandle ModelSession ModelGetter ModelPath ModelFiles ModelKeep.
From Verif Require Import SpecFiles SpecSession SpecKeep ProofSession ProofSession9 ProofKeep ProofKeep2 ExampleFiles PropsCodec PropsHandle PropsSession.
Import ListNotations.
Open Scope nat_scope.

(* ----- a codec for numbers (ExampleFiles.toy) ----- *)
Definition halved (n : blob) : blob := (2 * (n / 2))%N.
Definition files : codec blob :=
  MkCodec (fun f => marshal toy (MkSfile (sf_creation f) (sf_lookup f) (Z.of_N (sf_info f))))
    (fun b => let? f := unmarshal toy b in if (0 <=? sf_info f)%Z then Some (MkSfile (sf_creation f) (sf_lookup f) (Z.to_N (sf_info f))) else None).
Lemma halved_toy n : toy_norm (Z.of_N n) = Z.of_N (halved n).
Proof. unfold toy_norm, halved. rewrite N2Z.inj_mul, N2Z.inj_div. reflexivity. Qed.
Lemma files_m f : marshal files f = marshal toy (MkSfile (sf_creation f) (sf_lookup f) (Z.of_N (sf_info f))).
Proof. reflexivity. Qed.
Lemma files_u b : unmarshal files b =
  let? f := unmarshal toy b in if (0 <=? sf_info f)%Z then Some (MkSfile (sf_creation f) (sf_lookup f) (Z.to_N (sf_info f))) else None.
Proof. reflexivity. Qed.
Theorem files_faithful : faithful files halved.
Proof.
  destruct toy_faithful as [A B C D]. split.
  - intros f b M. rewrite files_m in M. rewrite files_u, (A _ _ M). cbn [sf_info sf_creation sf_lookup]. rewrite halved_toy.
    destruct (Z.leb_spec 0 (Z.of_N (halved (sf_info f)))); [|lia]. rewrite N2Z.id. reflexivity.
  - intros b f t U Y. rewrite files_u in U. destruct (unmarshal toy b) as [g|] eqn:E; [|discriminate]. destruct (Z.leb_spec 0 (sf_info g)); [|discriminate].
    injection U as <-. destruct (B b g t E Y) as [b' M]. exists b'. rewrite files_m. cbn [sf_creation sf_info sf_lookup]. rewrite Z2N.id by assumption. exact M.
  - intros b f U. rewrite files_u in U. destruct (unmarshal toy b) as [g|] eqn:E; [|discriminate]. destruct (Z.leb_spec 0 (sf_info g)); [|discriminate].
    injection U as <-. cbn [sf_info]. apply N2Z.inj. rewrite <- halved_toy, Z2N.id by assumption. exact (C b g E).
  - intros f b b1 b2 M E N. rewrite files_u, (D _ _ _ _ M E N). reflexivity.
Qed.

(* ----- a server ----- *)
Definition shows (k : ModelSession.key) (cr la : Z) (info : blob) : option bytes := Some (k ++ enc cr ++ enc la ++ enc (Z.of_N info)).
Definition home (max : N) : setting := MkSetting (MkConfig true max shows (fun x => x) (Some (fun x => x))) (fun x => x) files everywhere (ExampleFiles.key "/srv/s").
Lemma home_copies max : copies (home max).
Proof. intros x H. auto. Qed.
Lemma home_path max : g_path (home max) <> [].
Proof. discriminate. Qed.

(* ----- runs ----- *)
Fixpoint hrun (z : setting) (chk : house -> hev -> house -> bool) (s : house) (es : list hev) : option house :=
  match es with
  | [] => Some s
  | e :: es' => let? s' := hstep z s e in if chk s e s' then hrun z chk s' es' else None
  end.
Lemma hrun_reach z chk (good : house -> hev -> house -> Prop) es : forall s s', (forall s e s', hreach z good s -> chk s e s' = true -> good s e s') ->
  hreach z good s -> hrun z chk s es = Some s' -> hreach z good s'.
Proof.
  induction es as [|e es IH]; cbn; intros s s' CK R H; [injection H as <-; exact R|].
  destruct (hstep z s e) as [s1|] eqn:E; [|discriminate]. destruct (chk s e s1) eqn:B; [|discriminate]. apply (IH s1 s'); [exact CK| |exact H]. eapply HR_step; eauto.
Qed.
Definition is_restart (e : hev) : bool := match e with HRestart => true | _ => false end.
Lemma hrun_later z chk (good : house -> hev -> house -> Prop) s0 es : forall s s', (forall s e s', hreach z good s -> chk s e s' = true -> good s e s') ->
  hreach z good s0 -> hlater z good s0 s -> forallb (fun e => negb (is_restart e)) es = true -> hrun z chk s es = Some s' -> hlater z good s0 s'.
Proof.
  induction es as [|e es IH]; cbn; intros s s' CK R0 L NR H; [injection H as <-; exact L|].
  destruct (hstep z s e) as [s1|] eqn:E; [|discriminate]. destruct (chk s e s1) eqn:B; [|discriminate]. apply andb_true_iff in NR as [N1 N2].
  apply (IH s1 s'); [exact CK|exact R0| |exact N2|exact H]. econstructor; [exact L|exact E|intros ->; discriminate|]. apply CK; [|exact B]. eapply later_reach; eauto.
Qed.

(* what is checked at each step *)
Definition alone_b (s' : house) : bool := pairwise apart (s_ts (h_sys s')).
Lemma alone_spec s e s' : alone_b s' = true -> one_by_one s e s'.
Proof.
  intros H i j t u c D Hi Hj B1 B2. pose proof (pairwise_spec _ _ apart_sym H i j t u D Hi Hj) as P. rewrite (apart_busy c t u B1 B2) in P. discriminate.
Qed.
Definition running (s : house) : list (hook blob) :=
  flat_map (fun i => match h_pend s i with Some (PRun h _) => [h] | _ => [] end) (seq 0 (length (s_ts (h_sys s)))).
Lemma running_spec z (good : house -> hev -> house -> Prop) s h : hreach z good s -> calling s h -> In h (running s).
Proof.
  intros R (i & pr & P). destruct (fits_all _ _ _ R _ _ P) as (t & N & _). apply in_flat_map. exists i. split; [|rewrite P; left; reflexivity].
  apply in_seq. split; [lia|]. cbn. apply nth_error_Some. congruence.
Qed.
Definition plainb (k : bytes) : bool := forallb (fun b => negb (Byte.eqb b slash)) k.
Lemma plainb_spec k : plainb k = true -> plain k.
Proof. unfold plainb, plain. rewrite forallb_forall. intros H I. specialize (H _ I). vm_compute in H. discriminate. Qed.
Definition in_yearsb (t : Z) : bool := ((-62167219200000000000 <=? t) && (t <? 253402300800000000000))%Z.
Definition usableb (z : setting) (h : hook blob) : bool :=
  plainb (hook_key h) && match e_access (g_env z) (file_of (e_cwd (g_env z)) (g_path z) (hook_key h)) with Fine => true | _ => false end &&
  match h with HLookup _ now => in_yearsb now | _ => true end.
Lemma usableb_spec z h : usableb z h = true -> usable (g_env z) (g_path z) h.
Proof.
  unfold usableb, usable, in_yearsb, in_years. rewrite !andb_true_iff. intros [[A B] C]. split; [apply plainb_spec, A|]. split; [destruct (e_access _ _); congruence|].
  destruct h; auto. rewrite andb_true_iff, Z.leb_le, Z.ltb_lt in C. exact C.
Qed.
(* nothing fails; the process does not end within a hook *)
Definition usual_b (z : setting) (s : house) (e : hev) (s' : house) : bool :=
  match e with
  | HSys _ w => match w with Fail => false | _ => true end
  | HCall i now => match next_call z s i now with Some h => usableb z h | None => true end
  | HRestart => match running s with [] => true | _ => false end
  | _ => true
  end.
Definition calm_b (z : setting) (s : house) (e : hev) (s' : house) : bool :=
  usual_b z s e s' && match e with
  | HCall i now => match next_call z s i now with Some h => forallb (fun h' => negb (bytes_eqb (hook_key h') (hook_key h))) (running s) | None => true end
  | _ => true
  end.
Lemma calm_spec z (good : house -> hev -> house -> Prop) s e s' : hreach z good s -> calm_b z s e s' = true -> calm z s e s'.
Proof.
  intros R H. apply andb_true_iff in H as [U H]. destruct e as [e|i|i now|i w|i|]; cbn in *; auto.
  - intros h E. rewrite E in U, H. split; [apply usableb_spec, U|]. rewrite forallb_forall in H. intros h' C EQ. specialize (H _ (running_spec _ _ _ _ R C)).
    rewrite EQ, bytes_eqb_refl in H. discriminate.
  - intros ->. discriminate.
  - intros h C. pose proof (running_spec _ _ _ _ R C) as I. destruct (running s); [destruct I|discriminate].
Qed.

(* ----- pieces of runs ----- *)
Definition srv (i : nat) (ch : choice) : hev := HSess (EvStep i ch).
Definition sys_ok (i n : nat) : list hev := repeat (HSys i (How 99)) n.
(* thread i: CreateSession on connection c *)
Definition does_create (i c : nat) (info : blob) (k : ModelSession.key) (now : Z) : list hev :=
  HSess (EvCreate c info) :: map (srv i) [ChSock true; Go; ChKey k now; fine_writer; Go; Go] ++ [HGet i; HCall i now] ++ sys_ok i 3 ++ [HRet i].
Definition request (k : ModelSession.key) : message := read (n2b 32 :: id8 ++ k).
(* ... a restoration request, received before *)
Definition does_restore (i : nat) (now : Z) : list hev :=
  map (srv i) [Go; Go] ++ [HCall i now] ++ sys_ok i 5 ++ [HRet i] ++ map (srv i) [Go; Go; fine_writer].
Definition is_refused (i : nat) (now : Z) (n : nat) : list hev :=
  map (srv i) [Go; Go] ++ [HCall i now] ++ sys_ok i n ++ [HRet i] ++ map (srv i) [fine_writer].
(* ... CloseSession on a connection that is the only one of its session *)
Definition does_close (i c : nat) : list hev :=
  HSess (EvClose c) :: map (srv i) [Go; Go; Go; Go] ++ [HCall i 0%Z] ++ sys_ok i 1 ++ [HRet i] ++ map (srv i) [Go; fine_writer].
Definition carefully (max : N) (s : house) (e : hev) (s' : house) : bool := calm_b (home max) s e s' && alone_b s'.
Lemma carefully_spec max (good : house -> hev -> house -> Prop) s e s' : hreach (home max) good s -> carefully max s e s' = true -> calm (home max) s e s' /\ one_by_one s e s'.
Proof. intros R H. apply andb_true_iff in H as [A B]. split; [eapply calm_spec; eauto|eapply alone_spec; eauto]. Qed.
Definition usually (max : N) (s : house) (e : hev) (s' : house) : bool := usual_b (home max) s e s' && alone_b s'.
Lemma usually_spec max (good : house -> hev -> house -> Prop) s e s' : hreach (home max) good s -> usually max s e s' = true -> usual (home max) s e s' /\ one_by_one s e s'.
Proof.
  intros R H. apply andb_true_iff in H as [A B]. split; [|eapply alone_spec; eauto]. destruct e as [e|i|i now|i w|i|]; cbn in *; auto.
  - intros h E. rewrite E in A. exact (usableb_spec (home max) h A).
  - intros ->. discriminate.
  - intros h C. pose proof (running_spec _ _ _ _ R C) as I. destruct (running s); [destruct I|discriminate].
Qed.
(* a run up to s1, then a request, then a run up to s2 *)
Lemma asking z chk (good : house -> hev -> house -> Prop) es1 c m es2 a (P : house -> house -> Prop) :
  (forall s e s', hreach z good s -> chk s e s' = true -> good s e s') -> forallb (fun e => negb (is_restart e)) es2 = true ->
  match hrun z chk new_house es1 with
  | Some s1 =>
    match hrun z chk s1 (HSess (EvRestore c m) :: es2) with
    | Some s2 => (exists c' m' st, In (LReply (length (s_ts (h_sys s1))) c' m' a st) (slog (h_sys s2))) /\ P s1 s2
    | None => False
    end
  | None => False
  end -> exists s1 s2, hreach z good s1 /\ asked z good (payload_of m) s1 s2 a /\ P s1 s2.
Proof.
  intros CK NR H. destruct (hrun z chk new_house es1) as [s1|] eqn:E1; [|destruct H]. pose proof (hrun_reach _ _ _ _ _ _ CK (HR_new _ _) E1) as R1.
  cbn [hrun] in H. destruct (hstep z s1 (HSess (EvRestore c m))) as [s1'|] eqn:ST; [|destruct H]. destruct (chk s1 (HSess (EvRestore c m)) s1') eqn:K; [|destruct H].
  destruct (hrun z chk s1' es2) as [s2|] eqn:E2; [|destruct H]. destruct H as [(c' & m' & st & IN) PP]. exists s1, s2. split; [exact R1|]. split; [|exact PP].
  pose proof (CK _ _ _ R1 K) as G. exists c, m, s1', c', m', st. split; [reflexivity|]. split; [exact ST|]. split; [exact G|]. split; [|exact IN].
  eapply hrun_later; [exact CK| |constructor|exact NR|exact E2]. eapply HR_step; eauto.
Qed.
