(* The server over the in-memory transport: projections to the two machines; Run. *)
From Coq Require Import List Arith ZArith Lia Bool.
From Verif Require Import BaseBytes BaseConc ModelMessage ModelWrite ModelHandle ModelStack SpecWrite SpecStack.
From Verif Require ModelDispatch ModelMemchan SpecDispatch SpecMemchan.
Import ListNotations.
Open Scope nat_scope.

(* ---------- the cases of a step ---------- *)
Inductive kcase (s : stack) : event -> stack -> Prop :=
| K_run : kcase s ERun (with_runs (k_runs s ++ [RunStart]) s)
| K_runstep i r r' : nth_error (k_runs s) i = Some r -> run_step s r = Some r' ->
    kcase s (ERunStep i) (with_runs (set_nth (k_runs s) i r') s)
| K_chan : ModelMemchan.n_active (vnet s) = false -> k_chan s = false -> kcase s EChan (close_shutdown s)
| K_net e n : net_ok s e = true -> ModelMemchan.mstep (k_net s) e = Some n -> kcase s (ENet e) (with_net n s)
| K_accept j lim p n v : nthread s j = Some (ModelMemchan.TDial p ModelMemchan.DlAdd) ->
    ModelMemchan.mstep (k_net s) (ModelMemchan.EvStep j ModelMemchan.Go) = Some n ->
    ModelDispatch.dstep (k_srv s) (ModelDispatch.EvConnect lim) = Some v ->
    kcase s (EAccept j lim)
      (with_new (length (ModelDispatch.s_ts (k_srv s)))
                (p, ModelMemchan.u_gen (ModelMemchan.n_sock (vnet s) (p, ModelMemchan.Srv)))
                (with_net n (with_srv v s)))
| K_use i t u n : sthread s i = Some t -> next_use s i t = Some u ->
    ModelMemchan.mstep (k_net s) (call_of (ModelDispatch.v_buf (vsrv s)) u) = Some n ->
    kcase s (EUse i) (with_io i (Some (u, length (ModelMemchan.s_ts (k_net s))))
                       (with_text (length (ModelMemchan.s_ts (k_net s))) (text_of u) (with_net n s)))
| K_own i ch t v : sthread s i = Some t -> asks s i t = None -> (forall lim, t <> ModelDispatch.TNew lim) ->
    ModelDispatch.dstep (k_srv s) (ModelDispatch.EvStep i ch) = Some v ->
    kcase s (ESrv (ModelDispatch.EvStep i ch)) (with_srv v s)
| K_conf i lim v j u x : sthread s i = Some (ModelDispatch.TNew lim) -> asks s i (ModelDispatch.TNew lim) = Some x ->
    k_io s i = Some (u, j) -> returned s u j (ModelDispatch.ChConf true) = true ->
    ModelDispatch.dstep (k_srv s) (ModelDispatch.EvStep i (ModelDispatch.ChConf true)) = Some v ->
    kcase s (ESrv (ModelDispatch.EvStep i (ModelDispatch.ChConf true)))
      (with_conn (ModelDispatch.v_n (vsrv s)) (k_new s i) (with_io i None (with_srv v s)))
| K_ret i ch t v j u x : sthread s i = Some t -> asks s i t = Some x -> k_io s i = Some (u, j) ->
    returned s u j ch = true ->
    (forall lim, t = ModelDispatch.TNew lim -> ch <> ModelDispatch.ChConf true) ->
    ModelDispatch.dstep (k_srv s) (ModelDispatch.EvStep i ch) = Some v ->
    kcase s (ESrv (ModelDispatch.EvStep i ch)) (with_io i None (with_srv v s))
| K_begin e v : e = ModelDispatch.EvShutdown \/ (exists c, e = ModelDispatch.EvClose c) ->
    ModelDispatch.dstep (k_srv s) e = Some v -> kcase s (ESrv e) (with_srv v s).

Lemma kstep_inv s e s' : kstep s e = Some s' -> alive s /\ kcase s e s'.
Proof.
  unfold kstep. destruct (ModelDispatch.v_crashed (vsrv s) || ModelMemchan.n_crashed (vnet s)) eqn:C; [discriminate|].
  apply orb_false_iff in C. intros H. split; [exact C|].
  destruct e as [|i| |e|j lim|i|e].
  - injection H as <-. constructor.
  - destruct (nth_error (k_runs s) i) eqn:N; [|discriminate]. destruct (run_step s r) eqn:R; [|discriminate].
    injection H as <-. econstructor; eauto.
  - destruct (ModelMemchan.n_active (vnet s)) eqn:A; [discriminate|]. destruct (k_chan s) eqn:K; [discriminate|].
    injection H as <-. constructor; auto.
  - destruct (net_ok s e) eqn:O; [|discriminate]. destruct (ModelMemchan.mstep (k_net s) e) eqn:M; [|discriminate].
    injection H as <-. constructor; auto.
  - destruct (nthread s j) as [t|] eqn:N; [|discriminate]. destruct t as [| | |p st|]; try discriminate.
    destruct st; try discriminate.
    destruct (ModelMemchan.mstep (k_net s) (ModelMemchan.EvStep j ModelMemchan.Go)) eqn:M; [|discriminate].
    destruct (ModelDispatch.dstep (k_srv s) (ModelDispatch.EvConnect lim)) eqn:D; [|discriminate].
    injection H as <-. econstructor; eauto.
  - destruct (sthread s i) as [t|] eqn:N; [|discriminate]. destruct (next_use s i t) as [u|] eqn:U; [|discriminate].
    destruct (ModelMemchan.mstep (k_net s) (call_of (ModelDispatch.v_buf (vsrv s)) u)) as [n|] eqn:M; [|discriminate].
    injection H as <-. econstructor; eauto.
  - destruct e as [lim|c| |i ch]; [discriminate| | |].
    + destruct (ModelDispatch.dstep (k_srv s) (ModelDispatch.EvClose c)) eqn:D; [|discriminate].
      injection H as <-. apply K_begin; eauto.
    + destruct (ModelDispatch.dstep (k_srv s) ModelDispatch.EvShutdown) eqn:D; [|discriminate].
      injection H as <-. apply K_begin; eauto.
    + destruct (sthread s i) as [t|] eqn:N; [|discriminate]. cbv zeta in H.
      destruct (ModelDispatch.dstep (k_srv s) (ModelDispatch.EvStep i ch)) as [v|] eqn:D.
      2:{ destruct (asks s i t) as [x|]; [destruct (k_io s i) as [[u j]|]; [destruct (returned s u j ch)|]|destruct t]; discriminate. }
      destruct (asks s i t) as [x|] eqn:A.
      * destruct (k_io s i) as [[u j]|] eqn:K; [|discriminate]. destruct (returned s u j ch) eqn:Rt; [|discriminate].
        injection H as <-.
        assert (Q : (exists lim, t = ModelDispatch.TNew lim /\ ch = ModelDispatch.ChConf true) \/
          (forall lim, t = ModelDispatch.TNew lim -> ch <> ModelDispatch.ChConf true)).
        { destruct t; try (right; discriminate). destruct ch as [|[|]| | | |]; try (right; discriminate). left; eauto. }
        destruct Q as [(lim & -> & ->)|Q]; [eapply K_conf; eauto|].
        replace (match t with ModelDispatch.TNew _ => _ | _ => _ end) with (with_io i None (with_srv v s)).
        { eapply K_ret; eauto. }
        destruct t; try reflexivity. destruct ch as [|[|]| | | |]; try reflexivity. exfalso; eapply Q; reflexivity.
      * assert (Q : forall lim, t <> ModelDispatch.TNew lim) by (intros lim ->; discriminate).
        replace (match t with ModelDispatch.TNew _ => _ | _ => _ end) with (Some (with_srv v s)) in H
          by (destruct t; reflexivity || (exfalso; eapply Q; reflexivity)).
        injection H as <-. econstructor; eauto.
Qed.

(* ---------- projections ---------- *)
Definition net_event (s : stack) (e : event) : option ModelMemchan.ev :=
  match e with
  | ENet e' => Some e'
  | EAccept j _ => Some (ModelMemchan.EvStep j ModelMemchan.Go)
  | EUse i => match sthread s i with
              | Some t => match next_use s i t with Some u => Some (call_of (ModelDispatch.v_buf (vsrv s)) u) | None => None end
              | None => None
              end
  | _ => None
  end.
Lemma kcase_srv s e s' : kcase s e s' ->
  match srv_event e with
  | Some e' => ModelDispatch.dstep (k_srv s) e' = Some (k_srv s')
  | None => k_srv s' = k_srv s
  end.
Proof. intros []; cbn; auto. Qed.
Lemma kcase_net s e s' : kcase s e s' ->
  match net_event s e with
  | Some e' => ModelMemchan.mstep (k_net s) e' = Some (k_net s')
  | None => k_net s' = k_net s
  end.
Proof. intros []; cbn; auto. rewrite H, H0. cbn. auto. Qed.

Section Project.
Variables (buf : nat) (conf : bytes) (ok : stack -> event -> stack -> Prop).
Lemma reach_srv dok s : (forall s e s', ok s e s' -> match srv_event e with Some e' => dok (k_srv s) e' | None => True end) ->
  kreach buf conf ok s -> SpecDispatch.dreach buf dok (k_srv s).
Proof.
  intros O R. induction R as [|s e s' R IH H Ok]; [constructor|].
  destruct (kstep_inv _ _ _ H) as [_ K]. apply kcase_srv in K. specialize (O _ _ _ Ok).
  destruct (srv_event e); [econstructor; eauto|rewrite K; exact IH].
Qed.
Lemma reach_net (nok : ModelMemchan.sys -> Prop) s : (forall s e s', ok s e s' -> nok (k_net s')) ->
  kreach buf conf ok s -> SpecMemchan.mreach buf nok (k_net s).
Proof.
  intros O R. induction R as [|s e s' R IH H Ok]; [constructor|].
  destruct (kstep_inv _ _ _ H) as [_ K]. apply kcase_net in K. specialize (O _ _ _ Ok).
  destruct (net_event s e); [econstructor; eauto|rewrite K; exact IH].
Qed.
Lemma reach_srv_any s : kreach buf conf ok s -> SpecDispatch.dreach buf SpecDispatch.anything (k_srv s).
Proof. apply reach_srv. intros ? e ? _. destruct (srv_event e); exact Logic.I. Qed.
Lemma reach_net_any s : kreach buf conf ok s -> SpecMemchan.mreach buf SpecMemchan.anything (k_net s).
Proof. apply reach_net. intros. exact Logic.I. Qed.
Lemma kreach_any s : kreach buf conf ok s -> kreach buf conf always s.
Proof. induction 1; [constructor|econstructor; eauto; exact Logic.I]. Qed.
End Project.
