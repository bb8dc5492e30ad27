(* What users of a server with the default session manager rely on. *)
From Coq Require Import List Arith NArith ZArith Bool.
From Verif Require Import BaseBytes BaseConc ModelMessage ModelHandle ModelSession ModelFiles ModelKeep SpecFiles SpecSession.
Import ListNotations.
Open Scope nat_scope.

(* states of the server and its files reached by good steps; restarts of the server are steps *)
Inductive hreach (z : setting) (good : house -> hev -> house -> Prop) : house -> Prop :=
| HR_new : hreach z good new_house
| HR_step s e s' : hreach z good s -> hstep z s e = Some s' -> good s e s' -> hreach z good s'.
(* ... from s on, without restart *)
Inductive hlater (z : setting) (good : house -> hev -> house -> Prop) (s : house) : house -> Prop :=
| HL_same : hlater z good s s
| HL_step s1 e s2 : hlater z good s s1 -> hstep z s1 e = Some s2 -> e <> HRestart -> good s1 e s2 -> hlater z good s s2.
Definition always (s : house) (e : hev) (s' : house) : Prop := True.

(* a hook that has been called and has not returned *)
Definition calling (s : house) (h : hook blob) : Prop := exists i pr, h_pend s i = Some (PRun h pr).
(* files can be accessed and system calls do not fail; calls of hooks for one session do not overlap; the process
   does not end within a hook *)
Definition calm (z : setting) (s : house) (e : hev) (s' : house) : Prop :=
  match e with
  | HSys _ w => works w
  | HCall i now => forall h, next_call z s i now = Some h ->
      usable (g_env z) (g_path z) h /\ forall h', calling s h' -> hook_key h' <> hook_key h
  | HRestart => forall h, ~ calling s h
  | _ => True
  end.
(* the same without the condition on overlapping calls *)
Definition usual (z : setting) (s : house) (e : hev) (s' : house) : Prop :=
  match e with
  | HSys _ w => works w
  | HCall i now => forall h, next_call z s i now = Some h -> usable (g_env z) (g_path z) h
  | HRestart => forall h, ~ calling s h
  | _ => True
  end.
(* session calls and requests on one connection do not overlap *)
Definition one_by_one (s : house) (e : hev) (s' : house) : Prop := exclusive (h_sys s').
(* SessionInfo.Copy returns an object with the same fields *)
Definition copies (z : setting) : Prop := forall x, x <> 0%N -> g_copy z x <> 0%N /\ f_vars (g_cfg z) (g_copy z x) = f_vars (g_cfg z) x.

(* the logs of this process and of those before it *)
Definition logs (s : house) : list (list event) := h_past s ++ [slog (h_sys s)].

(* in s1 a client asks for session k; the answer, given by the time of s2, is a *)
Definition asked (z : setting) (good : house -> hev -> house -> Prop) (k : key) (s1 s2 : house) (a : answer) : Prop :=
  exists c m s1' c' m' st, payload_of m = k /\ hstep z s1 (HSess (EvRestore c m)) = Some s1' /\ good s1 (HSess (EvRestore c m)) s1' /\
    hlater z good s1' s2 /\ In (LReply (length (s_ts (h_sys s1))) c' m' a st) (slog (h_sys s2)).
(* session k is stored after the calls l of hooks: it has been created and neither closed nor replaced since *)
Definition spares (k : key) (p : hook blob * ModelFiles.result blob) : Prop :=
  match p with (HCreate k' _ _ _, RDone) | (HClose k', _) => k' <> k | _ => True end.
Definition live (norm : blob -> blob) (k : key) (l : list (hook blob * ModelFiles.result blob)) (cr la : Z) (info : blob) : Prop :=
  exists l1 lo i l2, l = l1 ++ (HCreate k cr lo i, RDone) :: l2 /\ Forall (spares k) l2 /\ la = last_lookup k lo (map fst l2) /\ info = norm i.
(* the answer a to a request for session k received in s1, given by the time of s2 *)
Inductive answered (z : setting) good (norm : blob -> blob) (k : key) (s1 s2 : house) : answer -> Prop :=
| AN_disabled : f_enabled (g_cfg z) = false -> answered z good norm k s1 s2 (AFail ESessDisabled)
| AN_full s : f_enabled (g_cfg z) = true -> hlater z good s1 s -> hlater z good s s2 -> ~ has_room (g_cfg z) (h_sys s) k ->
    answered z good norm k s1 s2 (AFail EMaxSessConns)
| AN_found l now r l' cr la info enc : f_enabled (g_cfg z) = true -> h_done s2 = h_done s1 ++ l ++ (HLookup k now, r) :: l' ->
    live norm k (h_done s1 ++ l) cr la info -> f_json (g_cfg z) k cr la info = Some enc -> answered z good norm k s1 s2 (AOk (Utf8, enc))
| AN_unencodable l now r l' cr la info : f_enabled (g_cfg z) = true -> h_done s2 = h_done s1 ++ l ++ (HLookup k now, r) :: l' ->
    live norm k (h_done s1 ++ l) cr la info -> f_json (g_cfg z) k cr la info = None -> answered z good norm k s1 s2 (AFail ENil)
| AN_notfound l now r l' : f_enabled (g_cfg z) = true -> h_done s2 = h_done s1 ++ l ++ (HLookup k now, r) :: l' ->
    (forall cr la info, ~ live norm k (h_done s1 ++ l) cr la info) -> answered z good norm k s1 s2 (AFail ESessNotFound).

(* ----- what calls of hooks correspond to ----- *)
(* the call of OnSessionCreated recording session x *)
Definition records (z : setting) (x : ModelSession.session) : hook blob :=
  HCreate (x_key x) (x_creation x) (x_last x) (if (x_info x =? 0)%N then 0%N else f_vars (g_cfg z) (x_info x)).
(* CreateSession has notified the client of x and come to its end *)
Definition created_in (L : list event) (x : ModelSession.session) : Prop :=
  exists i c enc calls, In (LNotifyCreated i c x enc calls) L /\ In (LCreated i c) L.
Definition called_in (z : setting) (L : list event) (h : hook blob) (r : ModelFiles.result blob) : Prop :=
  match h with
  | HCreate _ _ _ _ => exists x, created_in L x /\ h = records z x
  | HLookup k _ => exists i, In (LLookup i k (looked r)) L
  | HClose k => exists i, In (LDestroy i k) L
  end.
