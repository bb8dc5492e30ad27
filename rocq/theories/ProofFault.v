(* Errors of the session functions. *)
From Coq Require Import Strings.String.
From Coq Require Import List Arith NArith ZArith Bool Lia.
From Verif Require Import BaseBytes ModelMessage ModelErrors SpecWire SpecWrite ModelReport SpecReport ProofReport ProofReport3 ModelLog SpecLog ProofLog
  ModelPath ModelFiles ModelFault SpecFault.
Import ListNotations.
Open Scope list_scope.
Open Scope nat_scope.

Section Manager.
Context {I : Type}.
Variables (broken : err -> bytes) (c : jcodec I).
Lemma save_says st rd wr rm d path f : exists l t, saves broken c path wr f l t /\
  Save broken (recorder st rd wr rm) c d path f = (d ++ l, as_error t).
Proof.
  unfold Save. destruct (j_marshal c f) as [b|e] eqn:J; cbn [recorder d_write].
  - destruct wr as [e|].
    + do 2 eexists. split; [apply SV_write with (b := b) (e := e); auto|]. unfold fmt1. rewrite pct_s_printed. reflexivity.
    + do 2 eexists. split; [apply SV_done with (b := b); auto|]. reflexivity.
  - do 2 eexists. split; [apply SV_code with (e := e); auto|]. unfold fmt1. rewrite pct_s_printed, app_nil_r. reflexivity.
Qed.
Lemma saves_fun p wr f l t l' t' : saves broken c p wr f l t -> saves broken c p wr f l' t' -> l = l' /\ t = t'.
Proof. intros A B. destruct A, B; split; congruence. Qed.
Lemma created_says st rd wr rm path key cr lo info l t :
  OnSessionCreated broken (recorder st rd wr rm) c [] path key cr lo info = (l, as_error t) <-> saves broken c (filePath path key) wr (MkSfile cr lo info) l t.
Proof.
  unfold OnSessionCreated. destruct (save_says st rd wr rm [] (filePath path key) (MkSfile cr lo info)) as (l' & t' & S & ->).
  cbn [app]. split.
  - intros [= <- E]. replace t with t'; [exact S|]. destruct t, t'; cbn in E; congruence.
  - intros S'. destruct (saves_fun _ _ _ _ _ _ _ S S') as [-> ->]. reflexivity.
Qed.
Lemma lookup_total st rd wr rm path key now : exists l r, looks_up broken c (filePath path key) st rd wr now l r /\
  OnSessionLookup broken (recorder st rd wr rm) c [] path key now = (l, as_lookup r).
Proof.
  unfold OnSessionLookup. cbn [recorder d_stat app]. destruct st as [| |e].
  - unfold Parse. cbn [recorder d_read app]. destruct rd as [b|e].
    + destruct (j_unmarshal c b) as [f|e] eqn:J.
      * destruct (save_says SExists (inl b) wr rm [CStat (filePath path key); CRead (filePath path key)] (filePath path key) (MkSfile (sf_creation f) now (sf_info f)))
          as (l & t & S & E). rewrite E. destruct t as [t|]; cbn [as_error option_map].
        -- do 2 eexists. split; [apply (LU_save broken c _ _ _ _ _ b f l t); auto|]. unfold fmt1. cbn [app as_lookup]. rewrite pct_s_printed. reflexivity.
        -- do 2 eexists. split; [apply (LU_found broken c _ _ _ _ _ b f l); auto|]. reflexivity.
      * do 2 eexists. split; [apply (LU_parse broken c _ _ _ _ _ b e); auto|]. unfold fmt1. rewrite pct_s_printed. reflexivity.
    + do 2 eexists. split; [apply (LU_read broken c _ _ _ _ _ e); auto|]. unfold fmt1, Errorf. rewrite !pct_s_printed. reflexivity.
  - do 2 eexists. split; [apply LU_none; auto|]. reflexivity.
  - do 2 eexists. split; [apply (LU_stat broken c _ _ _ _ _ e); auto|]. unfold fmt1. rewrite pct_s_printed. reflexivity.
Qed.
Lemma looks_fun p st rd wr now l r l' r' : looks_up broken c p st rd wr now l r -> looks_up broken c p st rd wr now l' r' -> l = l' /\ r = r'.
Proof.
  intros A B. destruct A, B; try (split; congruence);
    match goal with
    | S : saves _ _ _ _ (MkSfile (sf_creation ?f) _ _) _ _, S' : saves _ _ _ _ (MkSfile (sf_creation ?f') _ _) _ _ |- _ =>
        assert (f = f') as <- by congruence; destruct (saves_fun _ _ _ _ _ _ _ S S') as [<- X]; split; congruence
    end.
Qed.
Lemma lookup_says st rd wr rm path key now l r :
  OnSessionLookup broken (recorder st rd wr rm) c [] path key now = (l, as_lookup r) <-> looks_up broken c (filePath path key) st rd wr now l r.
Proof.
  destruct (lookup_total st rd wr rm path key now) as (l' & r' & S & ->). split.
  - intros [= <- E]. replace r with r'; [exact S|]. destruct r, r'; cbn in E; congruence.
  - intros S'. destruct (looks_fun _ _ _ _ _ _ _ _ _ S S') as [-> ->]. reflexivity.
Qed.
Lemma closed_says st rd wr rm path key :
  OnSessionClosed broken (recorder st rd wr rm) [] path key =
    ([CRemove (filePath path key)], match rm with None => None | Some e => Some (Foreign (Some (t$"Unexpected error during session destruction: " ++ printed broken e))) end).
Proof. unfold OnSessionClosed. cbn. destruct rm as [e|]; [|reflexivity]. unfold fmt1. rewrite pct_s_printed. reflexivity. Qed.

(* agreement with ModelFiles *)
Context {D : Type} (ds : disk D).
Lemma replay_save {A} path q f (k : bool -> prog A) d :
  (forall b q' d', replay ds q' (k b) d' = replay ds q (k b) d') ->
  replay ds q (ModelFiles.Save (forget_codec c) path f k) d =
  let (d1, e) := Save broken ds c d path f in replay ds q (k (negb (is_some e))) d1.
Proof.
  intros H. unfold ModelFiles.Save, Save. cbn [forget_codec marshal]. destruct (j_marshal c f) as [b|e]; cbn [forget_sum]; [|reflexivity].
  unfold WriteFile. cbn [replay]. destruct (d_write ds d path b) as [d1 [e|]]; cbn [is_some negb]; rewrite H; reflexivity.
Qed.
Lemma same_created_hook q path key cr lo info d :
  replay ds q (ModelFiles.OnSessionCreated (forget_codec c) path key cr lo info) d =
  let (d1, e) := OnSessionCreated broken ds c d path key cr lo info in (d1, forget_done e).
Proof.
  unfold ModelFiles.OnSessionCreated, OnSessionCreated. rewrite replay_save by (intros; reflexivity).
  destruct (Save broken ds c d (filePath path key) _) as [d1 [e|]]; reflexivity.
Qed.
Lemma same_lookup_hook q path key now d :
  replay ds q (ModelFiles.OnSessionLookup (forget_codec c) path key now) d =
  let (d1, r) := OnSessionLookup broken ds c d path key now in (d1, forget_lookup r).
Proof.
  unfold ModelFiles.OnSessionLookup, OnSessionLookup. cbn [replay]. destruct (d_stat ds d (filePath path key)) as [d1 [| |e]]; cbn [forget_stat replay]; try reflexivity.
  unfold ModelFiles.Parse, Parse. cbn [replay]. destruct (d_read ds d1 (filePath path key)) as [d2 [b|e]]; cbn [forget_sum replay]; [|reflexivity].
  cbn [forget_codec unmarshal]. destruct (j_unmarshal c b) as [f|e]; cbn [forget_sum replay]; [|reflexivity].
  rewrite (replay_save (A := result I)) by (intros []; reflexivity).
  destruct (Save broken ds c d2 (filePath path key) _) as [d3 [e|]]; reflexivity.
Qed.
Lemma same_closed_hook q path key d :
  replay ds q (ModelFiles.OnSessionClosed (I := I) path key) d =
  let (d1, e) := OnSessionClosed broken ds d path key in (d1, forget_done e).
Proof.
  unfold ModelFiles.OnSessionClosed, OnSessionClosed. cbn [replay]. destruct (d_remove ds d (filePath path key)) as [d1 [e|]]; reflexivity.
Qed.
End Manager.

Lemma opens_says broken abs stat mkdir given r :
  NewDefaultSessionManager broken abs stat mkdir given = as_panic r <-> opens_default broken abs stat mkdir given r.
Proof.
  assert (G : forall path, exists r, opens broken stat mkdir path r /\
    match stat path with
    | SNotExist => match mkdir path with
                   | Some e => inr (Errorf (txt "Couldn't create default session directory ('" ++ path ++ txt "'): " ++ pct_s broken e))
                   | None => inl path
                   end
    | SError e => inr (Errorf (txt "Unexpected error during default session directory creation ('" ++ path ++ txt "'): " ++ pct_s broken e))
    | SExists => inl path
    end = as_panic r).
  { intros path. destruct (stat path) as [| |e] eqn:S.
    - eexists. split; [apply OP_there, S|reflexivity].
    - destruct (mkdir path) as [e|] eqn:M.
      + eexists. split; [apply (OP_not_made _ _ _ _ e); assumption|]. rewrite pct_s_printed. reflexivity.
      + eexists. split; [apply OP_made; assumption|reflexivity].
    - eexists. split; [apply (OP_error _ _ _ _ e); assumption|]. rewrite pct_s_printed. reflexivity. }
  assert (T : exists r, opens_default broken abs stat mkdir given r /\ NewDefaultSessionManager broken abs stat mkdir given = as_panic r).
  { unfold NewDefaultSessionManager. destruct given as [|x g]; cbn [length Nat.ltb Nat.leb].
    - destruct abs as [dir [e|]]; cbn [fst snd].
      + eexists. split; [apply (OD_nowhere _ _ _ _ _ dir e); reflexivity|]. rewrite pct_s_printed. reflexivity.
      + destruct (G (Join [dir; t$"wwrsess"])) as (r0 & O & E). exists r0. split; [apply (OD_default _ _ _ _ _ dir); auto|exact E].
    - destruct (G (x :: g)) as (r0 & O & E). exists r0. split; [apply OD_given; [discriminate|exact O]|exact E]. }
  assert (F : forall path a b, opens broken stat mkdir path a -> opens broken stat mkdir path b -> a = b) by (intros path a b A B; destruct A, B; congruence).
  destruct T as (r0 & O & ->). split.
  - intros E. replace r with r0; [exact O|]. destruct r, r0; cbn in E; congruence.
  - intros O'. f_equal. destruct O, O'; try congruence.
    + eapply F; eassumption.
    + assert (dir0 = dir) as -> by congruence. eapply F; eassumption.
Qed.

Section Connection.
Variable broken : err -> bytes.
Lemma notified_of (f : forall W, text_ops W -> W -> option (W * option err)) frame errs : writes_text broken f frame ->
  exists l e, notified broken errs frame l e /\ f _ (reporter errs) [] = Some (l, e).
Proof. intros (chunks & C & H). do 2 eexists. split; [apply NT, C|]. apply (H errs []). Qed.

(* CreateSession in the cases where nothing is sent *)
Lemma create_silent {W} (ops : text_ops W) en conn sess key enc hook gw :
  let r := CreateSession broken ops en conn sess key enc hook gw in
  let fails e := r = Some (MkEnd gw sess false [] (Some e)) in
  (en = false -> fails ErrSessionsDisabled) /\
  (en = true -> conn = false -> fails (ErrDisconnected (Some (Foreign (Some t$"Can't create session on disconnected connection"))))) /\
  (en = true -> conn = true -> forall k, sess = Some k -> fails (Foreign (Some (t$"Another session (" ++ k ++ t$") on this client is already active")))) /\
  (en = true -> conn = true -> sess = None -> forall e, enc = inr e ->
     fails (Foreign (Some (t$"Couldn't notify client about the session creation: Couldn't marshal session object: " ++ printed broken e)))) /\
  (en = true -> conn = true -> sess = None -> forall b e, enc = inl b -> gw = inr e ->
     fails (Foreign (Some (t$"Couldn't notify client about the session creation: " ++ printed broken e)))).
Proof.
  cbv zeta. unfold CreateSession. split; [intros ->; reflexivity|]. split; [intros -> ->; reflexivity|].
  split; [intros -> -> k ->; reflexivity|]. split.
  - intros -> -> -> e ->. cbn [negb notifySessionCreated]. rewrite !pct_s_printed. reflexivity.
  - intros -> -> -> b e -> ->. cbn [negb notifySessionCreated]. rewrite pct_s_printed. reflexivity.
Qed.
Lemma create_sent errs key b hook : exists l e, notified broken errs (n2b 21 :: b) l e /\
  match e with
  | Some e => CreateSession broken (reporter errs) true true None key (inl b) hook (inl []) =
      Some (MkEnd (inl l) None false [] (Some (Foreign (Some (t$"Couldn't notify client about the session creation: " ++ printed broken e)))))
  | None => exists log, CreateSession broken (reporter errs) true true None key (inl b) hook (inl []) = Some (MkEnd (inl l) (Some key) true log None) /\
      match hook with None => log = [] | Some x => one log (t$"OnSessionCreated hook failed: " ++ printed broken x) end
  end.
Proof.
  destruct (others_right broken [] [] b) as (_ & _ & H & _).
  destruct (notified_of _ _ errs H) as (l & e & N & E). exists l, e. split; [exact N|].
  unfold CreateSession, notifySessionCreated. cbn [negb]. rewrite E. destruct e as [e|].
  - rewrite pct_s_printed. reflexivity.
  - eexists. split; [reflexivity|]. apply created_log.
Qed.
Lemma close_silent {W} (ops : text_ops W) en sess last hook gw :
  let r := CloseSession broken ops en sess last hook gw in
  (en = false -> r = Some (MkEnd gw sess false [] (Some ErrSessionsDisabled))) /\
  (en = true -> sess = None -> r = Some (MkEnd gw None false [] None)) /\
  (en = true -> forall k, sess = Some k -> last = true -> hook = HkPanic -> r = None) /\
  (en = true -> forall k e, sess = Some k -> (last = true -> hook = HkDone) -> gw = inr e -> r = Some (MkEnd gw None last [] (Some e))) /\
  (en = true -> forall k e x, sess = Some k -> last = true -> hook = HkErr x -> gw = inr e ->
     r = Some (MkEnd gw None true [(ErrorLog, t$"session registry " ++ [newline])] (Some e))).
Proof.
  cbv zeta. unfold CloseSession. split; [intros ->; reflexivity|]. split; [intros -> ->; reflexivity|].
  split; [intros -> k -> -> ->; reflexivity|]. split.
  - intros -> k e -> H ->. destruct last; [rewrite (H eq_refl)|]; reflexivity.
  - intros -> k e x -> -> -> ->. reflexivity.
Qed.
Lemma close_sent errs k last hook : (last = true -> hook <> HkPanic) -> exists l e, notified broken errs [n2b 22] l e /\
  CloseSession broken (reporter errs) true (Some k) last hook (inl []) =
    Some (MkEnd (inl l) None last (match last, hook with true, HkErr _ => [(ErrorLog, t$"session registry " ++ [newline])] | _, _ => [] end) e).
Proof.
  intros H. destruct (others_right broken [] [] []) as (_ & H2 & _).
  destruct (notified_of _ _ errs H2) as (l & e & N & E). exists l, e. split; [exact N|].
  unfold CloseSession, notifySessionClosed. cbn [negb]. rewrite E.
  destruct last, hook; try reflexivity. destruct (H eq_refl eq_refl).
Qed.
End Connection.

(* from the disk to the log *)
Lemma disk_to_log {I} broken brokenv con (c : jcodec I) errs m wr rm path key now x e : RequiresReply m = true ->
  OnSessionLookup broken (recorder SExists (inr x) wr rm) c [] path key now = ([CStat (filePath path key); CRead (filePath path key)], inr e) ->
  let o := handleSessionRestore broken brokenv con (reporter errs) (inl []) m (ResFailed e) in
  exists l s, o_log o = l ++ [(ErrorLog, s)] /\
    ended (t$"session search handler failed: Couldn't parse session file: Couldn't parse session file, failed reading file: " ++ printed broken x) s.
Proof.
  intros R E. cbv zeta. destruct (restore_failed broken brokenv con errs m (ResFailed e) e _ R (or_introl (conj eq_refl eq_refl))) as (l & s & L & S & _).
  do 2 eexists. split; [exact L|]. unfold OnSessionLookup, Parse, fmt1, Errorf in E. cbn [recorder d_stat d_read app] in E.
  injection E as E. rewrite <- E in S. cbn [printed Error] in S. rewrite pct_s_printed in S. exact S.
Qed.
