(* C70: sessions of a server with the default session manager *)
From Coq Require Import Strings.String.
From Coq Require Import List Arith NArith ZArith Lia Bool.
From Verif Require Import BaseBytes BaseConc ModelMessage ModelHandle ModelSession ModelGetter ModelPath ModelFiles ModelKeep.
From Verif Require Import SpecFiles SpecSession SpecKeep ProofKeep ProofKeep2 ProofKeep3 ProofKeep4 ExampleFiles PropsCodec PropsHandle PropsSession ExampleKeep.
Import ListNotations.
Open Scope nat_scope.

(* the answer to a restoration request is determined by the calls of hooks so far, over all processes *)
Theorem C70_answer_partial : forall z (good : house -> hev -> house -> Prop) norm,
  (forall s e s', good s e s' -> calm z s e s') -> faithful (g_json z) norm -> g_path z <> [] ->
  forall k s1 s2 a, hreach z good s1 -> asked z good k s1 s2 a -> answered z good norm k s1 s2 a.
Proof. exact answer_given. Qed.
Print Assumptions C70_answer_partial.

(* the time of the last lookup told is that of the clock when the hook was called *)
Theorem C70_clock : forall z (good : house -> hev -> house -> Prop) (clock : Z -> Prop), (forall s i now s', good s (HCall i now) s' -> clock now) ->
  forall s, hreach z good s -> forall k now r, In (HLookup k now, r) (h_done s) -> clock now.
Proof. intros z good clock CK s R. exact (proj1 (clock_all z good clock CK s R)). Qed.
Print Assumptions C70_clock.

(* those calls are made for sessions created, looked up and destroyed ... *)
Theorem C70_hooks_partial : forall z (good : house -> hev -> house -> Prop), copies z -> (forall s e s', good s e s' -> one_by_one s e s') ->
  forall s, hreach z good s -> forall h r, In (h, r) (h_done s) -> exists L, In L (logs s) /\ called_in z L h r.
Proof. exact hooks_sound. Qed.
Print Assumptions C70_hooks_partial.
(* ... by each CreateSession that came to its end ... *)
Theorem C70_created_partial : forall z (good : house -> hev -> house -> Prop), copies z -> (forall s e s', good s e s' -> one_by_one s e s') ->
  forall s, hreach z good s -> forall L x, In L (logs s) -> created_in L x -> exists r, In (records z x, r) (h_done s).
Proof. exact hooks_created. Qed.
Print Assumptions C70_created_partial.
(* ... and by each call that destroyed a session *)
Theorem C70_closed_partial : forall z (good : house -> hev -> house -> Prop), copies z -> (forall s e s', good s e s' -> one_by_one s e s') ->
  (forall s e s', good s e s' -> calm z s e s') ->
  forall s, hreach z good s -> forall L i k, In L (logs s) -> In (LDestroy i k) L -> calling s (HClose k) \/ exists r, In (HClose k, r) (h_done s).
Proof. exact hooks_closed_all. Qed.
Print Assumptions C70_closed_partial.

(* no session but one that was created is restored *)
Theorem C70_genuine_partial : forall z (good : house -> hev -> house -> Prop), copies z -> (forall s e s', good s e s' -> one_by_one s e s') ->
  forall norm, (forall s e s', good s e s' -> calm z s e s') -> faithful (g_json z) norm -> g_path z <> [] ->
  forall k s1 s2 a, hreach z good s1 -> asked z good k s1 s2 a ->
  forall p, a = AOk p -> exists L x la, In L (logs s2) /\ created_in L x /\ x_key x = k /\
    let vars := if (x_info x =? 0)%N then 0%N else f_vars (g_cfg z) (x_info x) in
    exists enc, p = (Utf8, enc) /\ f_json (g_cfg z) k (x_creation x) la (norm vars) = Some enc.
Proof. exact genuine. Qed.
Print Assumptions C70_genuine_partial.
(* a session that was created is found, in this process and later ones, unless it was destroyed *)
Theorem C70_kept_partial : forall z (good : house -> hev -> house -> Prop), copies z -> (forall s e s', good s e s' -> one_by_one s e s') ->
  forall norm, (forall s e s', good s e s' -> calm z s e s') -> faithful (g_json z) norm -> g_path z <> [] ->
  forall k s1 s2 a, hreach z good s1 -> asked z good k s1 s2 a ->
  forall L x, In L (logs s1) -> created_in L x -> x_key x = k ->
  marshal (g_json z) (MkSfile (x_creation x) (x_last x) (if (x_info x =? 0)%N then 0%N else f_vars (g_cfg z) (x_info x))) <> None ->
  (forall L' i, In L' (logs s2) -> ~ In (LDestroy i k) L') -> a <> AFail ESessNotFound.
Proof. exact not_lost. Qed.
Print Assumptions C70_kept_partial.
(* a closed session is not restored *)
Theorem C70_gone_partial : forall z (good : house -> hev -> house -> Prop) norm,
  (forall s e s', good s e s' -> calm z s e s') -> faithful (g_json z) norm -> g_path z <> [] ->
  forall k s1 s2 a, hreach z good s1 -> asked z good k s1 s2 a ->
  (exists l1 r l2, h_done s1 = l1 ++ (HClose k, r) :: l2 /\ (forall cr lo i r', ~ In (HCreate k cr lo i, r') l2)) \/
    (forall cr lo i r', ~ In (HCreate k cr lo i, r') (h_done s1)) ->
  (forall l cr lo i r', h_done s2 = h_done s1 ++ l -> ~ In (HCreate k cr lo i, r') l) ->
  a = AFail ESessDisabled \/ a = AFail EMaxSessConns \/ a = AFail ESessNotFound.
Proof. exact gone. Qed.
Print Assumptions C70_gone_partial.

(* ----- cases ----- *)
Definition both (max : N) (s : house) (e : hev) (s' : house) : Prop := calm (home max) s e s' /\ one_by_one s e s'.
Definition sessionA (info : blob) : ModelSession.session := MkSession keyA 10 10 info.
Definition text (k : ModelSession.key) (cr la : Z) (info : blob) : bytes := k ++ enc cr ++ enc la ++ enc (Z.of_N info).
Ltac in_list := cbn [app In]; repeat (try (left; reflexivity); right).
Ltac replied := do 3 eexists; in_list.
(* created in one process, restored in the next, which ends too, restored in the third *)
Example C70_case : exists s1 s2, hreach (home 1) (both 1) s1 /\ asked (home 1) (both 1) keyA s1 s2 (AOk (Utf8, text keyA 10 20 6%N)) /\
  (exists L, In L (logs s1) /\ created_in L (sessionA 7%N)) /\ forall L' i, In L' (logs s2) -> ~ In (LDestroy i keyA) L'.
Proof.
  apply (asking (home 1) (carefully 1) (both 1) (does_create 0 0 7%N keyA 10 ++ HRestart :: HSess (EvRestore 3 (request keyA)) :: does_restore 0 20 ++ [HRestart])
    5 (request keyA) (does_restore 0 30) (AOk (Utf8, text keyA 10 20 6%N))
    (fun s1 s2 => (exists L, In L (logs s1) /\ created_in L (sessionA 7%N)) /\ forall L' i, In L' (logs s2) -> ~ In (LDestroy i keyA) L')).
  - intros s e s'. apply carefully_spec.
  - reflexivity.
  - vm_compute. split; [replied|]. split.
    + eexists. split; [left; reflexivity|]. exists 0, 0. do 2 eexists. split; in_list.
    + intros L' i [<-|[<-|[<-|[]]]] I; repeat (destruct I as [I|I]; [discriminate I|]); exact I.
Qed.
(* closed *)
Example C70_gone_case : exists s1 s2, hreach (home 1) (both 1) s1 /\ asked (home 1) (both 1) keyA s1 s2 (AFail ESessNotFound) /\
  (exists l1 r l2, h_done s1 = l1 ++ (HClose keyA, r) :: l2 /\ (forall cr lo i r', ~ In (HCreate keyA cr lo i, r') l2)) /\ exists i, In (LDestroy i keyA) (slog (h_sys s1)).
Proof.
  apply (asking (home 1) (carefully 1) (both 1) (does_create 0 0 7%N keyA 10 ++ does_close 1 0) 3 (request keyA) (is_refused 2 20 1) (AFail ESessNotFound)
    (fun s1 s2 => (exists l1 r l2, h_done s1 = l1 ++ (HClose keyA, r) :: l2 /\ (forall cr lo i r', ~ In (HCreate keyA cr lo i, r') l2)) /\ exists i, In (LDestroy i keyA) (slog (h_sys s1)))).
  - intros s e s'. apply carefully_spec.
  - reflexivity.
  - vm_compute. split; [replied|]. split; [|exists 1; in_list]. exists [(HCreate keyA 10 10 7%N, RDone)], RDone, []. split; [reflexivity|]. intros cr lo i r' [].
Qed.

(* ----- where the restrictions matter ----- *)
Definition most (max : N) (s : house) (e : hev) (s' : house) : Prop := usual (home max) s e s' /\ one_by_one s e s'.
(* two clients ask for one session at a time: one of them is told that the server failed *)
Definition one_asks : list hev := does_create 0 0 7%N keyA 10 ++ HSess (EvRestore 1 (request keyA)) :: map (srv 1) [Go; Go] ++ [HCall 1 20%Z] ++ sys_ok 1 3.
Theorem C70_overlap_refuted : exists z norm s1 s2, copies z /\ faithful (g_json z) norm /\ g_path z <> [] /\ f_max (g_cfg z) = 0%N /\
  (forall k cr la info, f_json (g_cfg z) k cr la info <> None) /\ let good := fun s e s' => usual z s e s' /\ one_by_one s e s' in
  hreach z good s1 /\ asked z good keyA s1 s2 (AFail ENil) /\ (exists L x, In L (logs s1) /\ created_in L x /\ x_key x = keyA) /\
  (forall L' i, In L' (logs s2) -> ~ In (LDestroy i keyA) L').
Proof.
  exists (home 0), halved.
  pose proof (asking (home 0) (usually 0) (most 0) one_asks 3 (request keyA) (is_refused 2 30 2) (AFail ENil)
    (fun s1 s2 => (exists L x, In L (logs s1) /\ created_in L x /\ x_key x = keyA) /\ (forall L' i, In L' (logs s2) -> ~ In (LDestroy i keyA) L'))) as A.
  destruct A as (s1 & s2 & R & AS & P).
  - intros s e s'. apply usually_spec.
  - reflexivity.
  - vm_compute. split; [replied|]. split.
    + eexists. exists (sessionA 7%N). split; [left; reflexivity|]. split; [|reflexivity]. exists 0, 0. do 2 eexists. split; in_list.
    + intros L' i [<-|[]] I; repeat (destruct I as [I|I]; [discriminate I|]); exact I.
  - exists s1, s2. split; [apply home_copies|]. split; [apply files_faithful|]. split; [apply home_path|]. split; [reflexivity|]. split; [discriminate|]. split; [exact R|]. split; [exact AS|exact P].
Qed.
Print Assumptions C70_overlap_refuted.

(* CloseSession ends a session while another client asks for it: the session can be restored later on *)
Definition close_meets_request : list hev :=
  HSess (EvRestore 1 (request keyA)) :: map (srv 1) [Go; Go] ++ [HCall 1 20%Z; HSys 1 (How 9); HSys 1 (How 9)] ++ does_close 2 0 ++ sys_ok 1 3 ++ [HRet 1] ++
  map (srv 1) [Go; Go; fine_writer] ++ [HRestart].
Theorem C70_closed_refuted : exists z norm s1 s2 a, copies z /\ faithful (g_json z) norm /\ g_path z <> [] /\ let good := fun s e s' => usual z s e s' /\ one_by_one s e s' in
  hreach z good s1 /\ asked z good keyA s1 s2 (AOk a) /\ (forall h, ~ calling s1 h) /\
  In (HClose keyA, RDone) (h_done s1) /\ (exists l, h_done s1 = (HCreate keyA 10 10 7%N, RDone) :: l /\ forall cr lo i r, ~ In (HCreate keyA cr lo i, r) l) /\
  exists l, h_done s2 = h_done s1 ++ l /\ forall cr lo i r, ~ In (HCreate keyA cr lo i, r) l.
Proof.
  exists (home 0), halved.
  pose proof (asking (home 0) (usually 0) (most 0) (does_create 0 0 7%N keyA 10 ++ close_meets_request) 3 (request keyA) (does_restore 0 30) (AOk (Utf8, text keyA 10 20 6%N))
    (fun s1 s2 => (forall h, ~ calling s1 h) /\
      In (HClose keyA, RDone) (h_done s1) /\ (exists l, h_done s1 = (HCreate keyA 10 10 7%N, RDone) :: l /\ forall cr lo i r, ~ In (HCreate keyA cr lo i, r) l) /\
      exists l, h_done s2 = h_done s1 ++ l /\ forall cr lo i r, ~ In (HCreate keyA cr lo i, r) l)) as A.
  destruct A as (s1 & s2 & R & AS & P).
  - intros s e s'. apply usually_spec.
  - reflexivity.
  - vm_compute. split; [replied|]. split; [intros h (i & pr & H); discriminate H|]. split; [in_list|]. split.
    + eexists. split; [reflexivity|]. intros cr lo i r I. repeat (destruct I as [I|I]; [discriminate I|]). exact I.
    + eexists [_]. split; [reflexivity|]. intros cr lo i r I. repeat (destruct I as [I|I]; [discriminate I|]). exact I.
  - exists s1, s2, (Utf8, text keyA 10 20 6%N). split; [apply home_copies|]. split; [apply files_faithful|]. split; [apply home_path|]. split; [exact R|]. split; [exact AS|exact P].
Qed.
Print Assumptions C70_closed_refuted.

(* the process ends while a session is looked up: the session is lost *)
Theorem C70_restart_refuted : exists z norm s1 s2, copies z /\ faithful (g_json z) norm /\ g_path z <> [] /\ f_max (g_cfg z) = 0%N /\
  (forall k cr la info, f_json (g_cfg z) k cr la info <> None) /\ let good := fun s e s' => (e <> HRestart -> calm z s e s') /\ one_by_one s e s' in
  hreach z good s1 /\ asked z good keyA s1 s2 (AFail ENil) /\ (exists L x, In L (logs s1) /\ created_in L x /\ x_key x = keyA) /\
  (forall L' i, In L' (logs s2) -> ~ In (LDestroy i keyA) L').
Proof.
  exists (home 0), halved.
  pose proof (asking (home 0) (fun s e s' => (is_restart e || calm_b (home 0) s e s') && alone_b s') (fun s e s' => (e <> HRestart -> calm (home 0) s e s') /\ one_by_one s e s')
    (one_asks ++ [HRestart]) 3 (request keyA) (is_refused 0 30 2) (AFail ENil)
    (fun s1 s2 => (exists L x, In L (logs s1) /\ created_in L x /\ x_key x = keyA) /\ (forall L' i, In L' (logs s2) -> ~ In (LDestroy i keyA) L'))) as A.
  destruct A as (s1 & s2 & R & AS & P).
  - intros s e s' R H. apply andb_true_iff in H as [H1 H2]. split; [|eapply alone_spec; eauto]. intros N. apply orb_true_iff in H1 as [H1|H1]; [destruct e; try discriminate H1; destruct (N eq_refl)|]. eapply calm_spec; eauto.
  - reflexivity.
  - vm_compute. split; [replied|]. split.
    + eexists. exists (sessionA 7%N). split; [left; reflexivity|]. split; [|reflexivity]. exists 0, 0. do 2 eexists. split; in_list.
    + intros L' i [<-|[<-|[]]] I; repeat (destruct I as [I|I]; [discriminate I|]); exact I.
  - exists s1, s2. split; [apply home_copies|]. split; [apply files_faithful|]. split; [apply home_path|]. split; [reflexivity|]. split; [discriminate|]. split; [exact R|]. split; [exact AS|exact P].
Qed.
Print Assumptions C70_restart_refuted.

(* a file that cannot be written: CreateSession reports success; the session cannot be restored *)
Definition unwritten : list hev :=
  HSess (EvCreate 0 7%N) :: map (srv 0) [ChSock true; Go; ChKey keyA 10; fine_writer; Go; Go] ++ [HGet 0; HCall 0 10%Z; HSys 0 Fail; HRet 0].
Theorem C70_failing_refuted : exists z norm s1 s2, copies z /\ faithful (g_json z) norm /\ g_path z <> [] /\
  let good := fun s e s' => ((forall i w, e <> HSys i w) -> calm z s e s') /\ one_by_one s e s' in
  hreach z good s1 /\ asked z good keyA s1 s2 (AFail ESessNotFound) /\ nth_error (s_ts (h_sys s1)) 0 = Some (TCreate 0 7%N (CDone RNil)) /\
  (exists L x, In L (logs s1) /\ created_in L x /\ x_key x = keyA) /\ (forall L' i, In L' (logs s2) -> ~ In (LDestroy i keyA) L').
Proof.
  exists (home 0), halved.
  pose proof (asking (home 0) (fun s e s' => (match e with HSys _ _ => true | _ => calm_b (home 0) s e s' end) && alone_b s')
    (fun s e s' => ((forall i w, e <> HSys i w) -> calm (home 0) s e s') /\ one_by_one s e s')
    unwritten 3 (request keyA) (is_refused 1 30 1) (AFail ESessNotFound)
    (fun s1 s2 => nth_error (s_ts (h_sys s1)) 0 = Some (TCreate 0 7%N (CDone RNil)) /\
      (exists L x, In L (logs s1) /\ created_in L x /\ x_key x = keyA) /\ (forall L' i, In L' (logs s2) -> ~ In (LDestroy i keyA) L'))) as A.
  destruct A as (s1 & s2 & R & AS & P).
  - intros s e s' R H. apply andb_true_iff in H as [H1 H2]. split; [|eapply alone_spec; eauto]. intros N. destruct e; try (eapply calm_spec; eauto; fail). destruct (N i w eq_refl).
  - reflexivity.
  - vm_compute. split; [replied|]. split; [reflexivity|]. split.
    + eexists. exists (sessionA 7%N). split; [left; reflexivity|]. split; [|reflexivity]. exists 0, 0. do 2 eexists. split; in_list.
    + intros L' i [<-|[]] I; repeat (destruct I as [I|I]; [discriminate I|]); exact I.
  - exists s1, s2. split; [apply home_copies|]. split; [apply files_faithful|]. split; [apply home_path|]. split; [exact R|]. split; [exact AS|exact P].
Qed.
Print Assumptions C70_failing_refuted.

(* a key with slashes: a session with the maximum number of connections is restored once more, under another key ... *)
Definition aliasA : ModelSession.key := bs [46; 47; 65]%N.
Definition open (max : N) (s : house) (e : hev) (s' : house) : Prop :=
  match e with HCall i now => forall h, calling s h -> next_call (home max) s i now <> Some h | _ => usual (home max) s e s' end /\ one_by_one s e s'.
Definition open_b (max : N) (s : house) (e : hev) (s' : house) : bool :=
  match e with HCall _ _ => match running s with [] => true | _ => false end | _ => usual_b (home max) s e s' end && alone_b s'.
Lemma open_spec max s e s' : hreach (home max) (open max) s -> open_b max s e s' = true -> open max s e s'.
Proof.
  intros R H. apply andb_true_iff in H as [H1 H2]. split; [|eapply alone_spec; eauto].
  assert (U : usual_b (home max) s e s' = true -> usual (home max) s e s') by (intros U; apply (usually_spec max (open max) s e s' R); unfold usually; rewrite U; exact H2).
  destruct e; auto. intros h C _. apply (running_spec _ _ _ _ R) in C. destruct (running s); [destruct C|discriminate].
Qed.
Theorem C70_alias_refuted : exists s1 s2, hreach (home 1) (open 1) s1 /\ asked (home 1) (open 1) aliasA s1 s2 (AOk (Utf8, text aliasA 10 10 6%N)) /\
  f_max (g_cfg (home 1)) = 1%N /\ sessionConnectionsNum (reg (h_sys s1)) keyA = 1%Z /\ h_done s1 = [(HCreate keyA 10 10 7%N, RDone)].
Proof.
  apply (asking (home 1) (open_b 1) (open 1) (does_create 0 0 7%N keyA 10) 3 (request aliasA) (does_restore 1 20) (AOk (Utf8, text aliasA 10 10 6%N))
    (fun s1 s2 => f_max (g_cfg (home 1)) = 1%N /\ sessionConnectionsNum (reg (h_sys s1)) keyA = 1%Z /\ h_done s1 = [(HCreate keyA 10 10 7%N, RDone)])).
  - intros s e s'. apply open_spec.
  - reflexivity.
  - vm_compute. split; [replied|auto].
Qed.
Print Assumptions C70_alias_refuted.
(* ... and, closed under that key, it is gone although its first connection is still there *)
Theorem C70_alias_close_refuted : exists s1 s2, hreach (home 0) (open 0) s1 /\ asked (home 0) (open 0) keyA s1 s2 (AFail ESessNotFound) /\
  sessionConnectionsNum (reg (h_sys s1)) keyA = 1%Z /\ (exists L x, In L (logs s1) /\ created_in L x /\ x_key x = keyA) /\ (forall L' i, In L' (logs s2) -> ~ In (LDestroy i keyA) L').
Proof.
  apply (asking (home 0) (open_b 0) (open 0) (does_create 0 0 7%N keyA 10 ++ HSess (EvRestore 1 (request aliasA)) :: does_restore 1 20 ++ does_close 2 1) 3 (request keyA) (is_refused 3 30 1) (AFail ESessNotFound)
    (fun s1 s2 => sessionConnectionsNum (reg (h_sys s1)) keyA = 1%Z /\ (exists L x, In L (logs s1) /\ created_in L x /\ x_key x = keyA) /\ (forall L' i, In L' (logs s2) -> ~ In (LDestroy i keyA) L'))).
  - intros s e s'. apply open_spec.
  - reflexivity.
  - vm_compute. split; [replied|]. split; [reflexivity|]. split.
    + eexists. exists (sessionA 7%N). split; [left; reflexivity|]. split; [|reflexivity]. exists 0, 0. do 2 eexists. split; in_list.
    + intros L' i [<-|[]] I; repeat (destruct I as [I|I]; [discriminate I|]); exact I.
Qed.
Print Assumptions C70_alias_close_refuted.

Lemma usual_spec s e s' : hreach (home 0) (usual (home 0)) s -> usual_b (home 0) s e s' = true -> usual (home 0) s e s'.
Proof.
  intros R H. destruct e; cbn in *; auto.
  - intros h E. rewrite E in H. exact (usableb_spec (home 0) h H).
  - intros ->. discriminate.
  - intros h C. pose proof (running_spec _ _ _ _ R C) as I. destruct (running s); [destruct I|discriminate].
Qed.
(* CloseSession while CreateSession on the same connection is in OnSessionCreated: both succeed, the session can be
   restored all the same ... *)
Definition starts_create : list hev := HSess (EvCreate 0 7%N) :: map (srv 0) [ChSock true; Go; ChKey keyA 10; fine_writer; Go; Go].
Definition close_meets_create : list hev := starts_create ++ [HGet 0; HCall 0 10%Z] ++ does_close 1 0 ++ sys_ok 0 3 ++ [HRet 0].
Theorem C70_create_close_refuted : exists s1 s2 a, hreach (home 0) (usual (home 0)) s1 /\ asked (home 0) (usual (home 0)) keyA s1 s2 (AOk a) /\
  s_ts (h_sys s1) = [TCreate 0 7%N (CDone RNil); TClose 0 (QDone RNil)] /\ g_sess (s_srv (h_sys s1)) 0 = None /\ In (LDestroy 1 keyA) (slog (h_sys s1)).
Proof.
  pose proof (asking (home 0) (usual_b (home 0)) (usual (home 0)) close_meets_create 3 (request keyA) (does_restore 2 30) (AOk (Utf8, text keyA 10 10 6%N))
    (fun s1 s2 => s_ts (h_sys s1) = [TCreate 0 7%N (CDone RNil); TClose 0 (QDone RNil)] /\ g_sess (s_srv (h_sys s1)) 0 = None /\ In (LDestroy 1 keyA) (slog (h_sys s1)))) as A.
  destruct A as (s1 & s2 & R & AS & P).
  - apply usual_spec.
  - reflexivity.
  - vm_compute. split; [replied|]. split; [reflexivity|]. split; [reflexivity|]. in_list.
  - exists s1, s2, (Utf8, text keyA 10 10 6%N). auto.
Qed.
Print Assumptions C70_create_close_refuted.
(* ... or the server panics *)
Theorem C70_panic_refuted : exists s, hreach (home 0) (usual (home 0)) s /\ g_crashed (s_srv (h_sys s)) = true.
Proof.
  assert (V : match hrun (home 0) (usual_b (home 0)) new_house (starts_create ++ does_close 1 0 ++ [HGet 0]) with Some s => g_crashed (s_srv (h_sys s)) | None => false end = true) by (vm_compute; reflexivity).
  destruct (hrun (home 0) (usual_b (home 0)) new_house (starts_create ++ does_close 1 0 ++ [HGet 0])) as [s|] eqn:E; [|discriminate V].
  exists s. split; [|exact V]. eapply hrun_reach; [|constructor|exact E]. apply usual_spec.
Qed.
Print Assumptions C70_panic_refuted.
