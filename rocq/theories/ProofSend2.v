(* ModelSend agrees with the writers of ModelMemchan. *)
From Coq Require Import Strings.String.
From Coq Require Import List Arith Lia Bool.
From Verif Require Import BaseBytes ModelErrors ModelMemchan SpecReport SpecSend2 ProofMemchan.
From Verif Require ModelReport ModelSend.
Import ListNotations.
Open Scope list_scope.
Open Scope nat_scope.

Lemma view_eq k n n' : u_buf (n_sock n' k) = u_buf (n_sock n k) -> free (u_blk (n_sock n' k)) = free (u_blk (n_sock n k)) ->
  free (u_wlk (n_sock n' k)) = free (u_wlk (n_sock n k)) -> handed k (n_log n') = handed k (n_log n) -> view k n' = view k n.
Proof. intros A B C D. unfold view. rewrite A, B, C, D. reflexivity. Qed.
Lemma handed_app k a b : handed k (a ++ b) = handed k a ++ handed k b.
Proof. apply flat_map_app. Qed.
Lemma remote_no k : sock_eqb k (remote k) = false.
Proof. destruct k as [p []]; unfold sock_eqb; cbn; apply andb_false_r. Qed.
Ltac look := unfold view, log, set_buf, set_blk, set_wlk, set_klk, set_chan, set_sock, upds, crash;
  cbn [n_sock n_log n_on n_chan n_conns n_active n_crashed u_buf u_blk u_wlk u_rlk u_klk u_gen];
  rewrite ?sock_eqb_refl, ?remote_no, ?handed_app, ?app_nil_r;
  cbn [u_buf u_blk u_wlk u_rlk u_klk u_gen handed flat_map]; rewrite ?sock_eqb_refl, ?app_nil_r.

Lemma get_agrees i n k :
  match write_step i n k WGet Go with
  | None => ModelSend.GetWriter (view k n) (n_on n (fst k)) = None
  | Some (n', WOpen, None) => ModelSend.GetWriter (view k n) (n_on n (fst k)) = Some (view k n', inl (view k n'))
  | Some (n', WDone r, None) => exists e, told r = Some e /\ ModelSend.GetWriter (view k n) (n_on n (fst k)) = Some (view k n', inr e)
  | _ => False
  end.
Proof.
  unfold write_step. unfold ModelSend.GetWriter. destruct (u_wlk (n_sock n k)) as [j|] eqn:E; cbn [free]; unfold view at 1;
    cbn [ModelSend.w_writer]; rewrite E; cbn [free negb]; [reflexivity|].
  destruct (n_on n (fst k)); cbn [negb].
  - look. cbn [ModelSend.w_writer]. rewrite ?E. reflexivity.
  - eexists. split; [reflexivity|]. look. cbn [ModelSend.w_writer]. rewrite E. reflexivity.
Qed.
Lemma write_agrees i n k p :
  match write_step i n k WOpen (ChWrite p) with
  | None => ModelSend.w_stuck (fst (ModelSend.write (view k n) p)) = true
  | Some (n', WOpen, None) => exists ok, n_log n' = n_log n ++ [LWrite i k p ok] /\
      ModelSend.write (view k n) p = (view k n', if ok then None else Some ErrBufferOverflow)
  | _ => False
  end.
Proof.
  unfold write_step, ModelSend.write. destruct (u_blk (n_sock n k)) as [j|] eqn:E; cbn [free]; unfold view at 1;
    cbn [ModelSend.w_locked ModelSend.w_buf]; rewrite E; cbn [free negb]; [reflexivity|].
  destruct (buf_write (u_buf (n_sock n k)) p) as [b ok] eqn:B. exists ok. split; [reflexivity|].
  unfold view at 1. cbn [ModelSend.w_buf]. rewrite B. look. rewrite E. reflexivity.
Qed.

(* what is known while Close runs; w: when it began *)
Definition flush (w : ModelSend.wire) : bytes := slice (ModelSend.w_buf w) (b_len (ModelSend.w_buf w)).
Definition under (w : ModelSend.wire) (s : wstate) (v : ModelSend.wire) : Prop :=
  match s with
  | WFlush | WSend | WBlock =>
      (b_len (ModelSend.w_buf w) <? 1) = false /\
      v = ModelSend.MkWire (ModelSend.w_buf w) true (ModelSend.w_writer w) (ModelSend.w_sent w) false
  | WSent | WParked =>
      (b_len (ModelSend.w_buf w) <? 1) = false /\
      v = ModelSend.MkWire (ModelSend.w_buf w) true (ModelSend.w_writer w) (ModelSend.w_sent w ++ [flush w]) false
  | WReset r => (b_len (ModelSend.w_buf w) <? 1) = false /\
      (r = WrClosed /\ v = ModelSend.MkWire (ModelSend.w_buf w) true false (ModelSend.w_sent w) false \/
       (r = WrRead \/ r = WrSockClosed) /\ v = ModelSend.MkWire (ModelSend.w_buf w) true false (ModelSend.w_sent w ++ [flush w]) false)
  | WDone r => ModelSend.close (match r with WrClosed => false | _ => true end) (fun _ => told r) w = (v, told r)
  | _ => False
  end.
Lemma view_fields k n b l wr s st : view k n = ModelSend.MkWire b l wr s st ->
  u_buf (n_sock n k) = b /\ negb (free (u_blk (n_sock n k))) = l /\ negb (free (u_wlk (n_sock n k))) = wr /\ handed k (n_log n) = s.
Proof. unfold view. intros H. injection H as A B C D. auto. Qed.
Lemma under_step i n k s ch n1 s1 o w : ModelSend.w_locked w = false -> ModelSend.w_stuck w = false ->
  under w s (view k n) -> write_step i n k s ch = Some (n1, s1, o) -> under w s1 (view k n1).
Proof.
  intros Lw Sw U S. destruct s; cbn [under] in U; try contradiction; unfold write_step in S; destruct ch; try discriminate S.
  - destruct U as [N V]. destruct (n_on n (fst k)); injection S as <- <- <-; cbn [under]; split; auto.
    left. split; [reflexivity|]. apply view_fields in V as (A & B & C & D). look. rewrite A, B, D. reflexivity.
  - destruct U as [N V]. destruct (free (u_klk _)); [|discriminate S]. destruct (h_closed _).
    { injection S as <- <- <-. cbn [under]. split; [exact N|]. rewrite <- V. reflexivity. }
    destruct (h_data _); injection S as <- <- <-; cbn [under]; (split; [exact N|]).
    + rewrite <- V. look. reflexivity.
    + apply view_fields in V as (A & B & C & D). look. rewrite A, B, C, D. reflexivity.
  - destruct U as [N V]. destruct (h_data _); [discriminate S|]. injection S as <- <- <-. cbn [under]. split; [exact N|].
    apply view_fields in V as (A & B & C & D). look. rewrite A, B, C, D. reflexivity.
  - injection S as <- <- <-. exact U.
  - injection S as <- <- <-. cbn [under]. destruct U as [N U]. unfold ModelSend.close, ModelSend.onBufferFlush. rewrite Lw, N, Sw. fold (flush w).
    destruct U as [[-> V]|[[->| ->] V]]; cbn [negb]; apply view_fields in V as (A & B & C & D); look; rewrite A, C, D; reflexivity.
Qed.
Lemma under_run i k w : ModelSend.w_locked w = false -> ModelSend.w_stuck w = false -> forall n s n2 s2, goes_on i k n s n2 s2 ->
  under w s (view k n) -> under w s2 (view k n2).
Proof.
  intros Lw Sw n s n2 s2 G. induction G as [n s|n s n1 n2 s2 V G IH|n s ch n1 s1 o n2 s2 S G IH|n v n2 s2 Hv G IH]; intros U.
  - exact U.
  - apply IH. rewrite V. exact U.
  - apply IH. exact (under_step _ _ _ _ _ _ _ _ _ Lw Sw U S).
  - apply IH. cbn [under] in *. destruct U as [N V]. split; [exact N|]. right. split; [exact Hv|].
    apply view_fields in V as (A & B & C & D). look. rewrite A, B, D. reflexivity.
Qed.
Lemma close_agrees i k n :
  (write_step i n k WOpen ChClose = None -> forall c v, ModelSend.w_stuck (fst (ModelSend.close c v (view k n))) = true) /\
  (forall n1 s1 o n2 r, write_step i n k WOpen ChClose = Some (n1, s1, o) -> goes_on i k n1 s1 n2 (WDone r) ->
     ModelSend.close (match r with WrClosed => false | _ => true end) (fun _ => told r) (view k n) = (view k n2, told r)).
Proof.
  unfold write_step. destruct (u_blk (n_sock n k)) as [j|] eqn:E; cbn [free].
  - split; [|discriminate]. intros _ c v. unfold ModelSend.close, view at 1. cbn [ModelSend.w_locked]. rewrite E. reflexivity.
  - assert (Lw : ModelSend.w_locked (view k n) = false) by (unfold view; cbn; rewrite E; reflexivity).
    destruct (b_len (u_buf (n_sock n k)) <? 1) eqn:B; (split; [discriminate|]); intros n1 s1 o n2 r S G; injection S as <- <- <-;
      (change (under (view k n) (WDone r) (view k n2)); refine (under_run i k (view k n) Lw eq_refl _ _ _ _ G _)).
    + cbn [under]. unfold ModelSend.close. rewrite Lw. cbn [view ModelSend.w_buf]. rewrite B. look. reflexivity.
    + cbn [under]. split; [exact B|]. look. reflexivity.
Qed.
