(* What a connection has read, and which threads read. *)
From Coq Require Import List Arith ZArith Lia Bool.
From Verif Require Import BaseBytes BaseConc ModelMessage ModelWrite ModelHandle ModelDispatch SpecWire SpecMessage SpecWrite SpecHandle SpecDispatch.
From Verif Require Import ProofDispatch ProofDispatch2 ProofDispatch3 ProofDispatch4 ProofStackSrv.
From Verif Require SpecStack.
Import ListNotations.
Open Scope nat_scope.
Notation frames := SpecStack.frames.
Notation looping := SpecStack.looping.

Lemma frames_snoc c l x : frames c (l ++ [x]) = frames c l ++ match x with LFrame c' _ b _ => if c' =? c then [b] else [] | _ => [] end.
Proof. unfold frames. rewrite flat_map_app. cbn. rewrite app_nil_r. reflexivity. Qed.
Arguments SpecStack.frames : simpl never.
Definition reads (t : thread) (ch : choice) : option (nat * bytes) :=
  match t, ch with TRd c RWait, ChFrame b => Some (c, b) | _, _ => None end.
Lemma frames_tstep g i t ch g' t' sp : tstep g i t ch = Some (g', t', sp) -> v_crashed g = false ->
  (v_crashed g' = true /\ v_log g' = v_log g) \/
  (v_crashed g' = false /\ forall c, frames c (v_log g') = frames c (v_log g) ++
     match reads t ch with Some (c0, b) => if c0 =? c then [b] else [] | None => [] end).
Proof.
  intros H Cr. inv_tstep H; cbn [v_log v_crashed log crash with_conn with_ops set_shutdown reads]; try (left; split; reflexivity); right; (split; [assumption|]); intros c';
    rewrite ?frames_snoc, ?app_nil_r; try reflexivity.
Qed.
Lemma frames_dstep s e s' : dstep s e = Some s' ->
  (v_crashed (s_srv s') = true /\ slog s' = slog s) \/
  (v_crashed (s_srv s') = false /\ forall c, frames c (slog s') = frames c (slog s) ++
     match e with
     | EvStep i ch => match nth_error (s_ts s) i with
                      | Some t => match reads t ch with Some (c0, b) => if c0 =? c then [b] else [] | None => [] end
                      | None => []
                      end
     | _ => []
     end).
Proof.
  intros H. destruct (dstep_inv _ _ _ H) as (Cr & [(u & U & ->)|(j & ch & u & g' & u' & sp & -> & Nj & T & ->)]).
  - right. split; [exact Cr|]. intros c. destruct e; try (symmetry; apply app_nil_r). destruct U.
  - rewrite Nj. exact (frames_tstep _ _ _ _ _ _ _ T Cr).
Qed.
Lemma frames_fresh buf ok s : dreach buf ok s -> forall c, v_n (s_srv s) <= c -> frames c (slog s) = [].
Proof.
  induction 1 as [|s e s' R IH Ok H]; intros c L; [reflexivity|].
  pose proof (conns_grow _ _ _ H) as G. destruct (frames_dstep _ _ _ H) as [[_ E]|[_ E]]; [rewrite E; apply IH; lia|].
  rewrite E, IH by lia. destruct e as [| | |i ch]; try reflexivity. destruct (nth_error (s_ts s) i) as [t|] eqn:N; [|reflexivity].
  destruct (reads t ch) as [[c0 b]|] eqn:Rd; [|reflexivity]. destruct (Nat.eqb_spec c0 c) as [->|]; [|reflexivity].
  exfalso. assert (conn_of t = Some c) by (destruct t; try discriminate Rd; destruct s0; try discriminate Rd; destruct ch; try discriminate Rd; injection Rd as -> _; reflexivity).
  pose proof (belongs_lt _ _ _ _ _ _ R N H0). lia.
Qed.
Lemma loop_from g i t ch g' t' sp : tstep g i t ch = Some (g', t', sp) -> looping t' = true ->
  looping t = true /\
  ((exists c st st', t = TRd c st /\ t' = TRd c st') \/
   (exists lim, t = TNew lim /\ ch = ChConf true /\ t' = TRd (v_n g) RHook)).
Proof.
  intros H L. inv_tstep H; cbn in *; try discriminate L; (split; [try reflexivity|]); eauto 8.
  all: try (destruct (c_active _); discriminate L).
  all: try (destruct (_ <? _)%Z; discriminate L).
Qed.
(* frames are numbered in the order they are read *)
Lemma frames_number buf ok s : dreach buf ok s ->
  (forall c, c < v_n (s_srv s) -> length (frames c (slog s)) = c_next (v_conn (s_srv s) c)) /\
  (forall c k b m, In (LFrame c k b m) (slog s) -> nth_error (frames c (slog s)) k = Some b).
Proof.
  induction 1 as [|s e s' R IH Ok H]; [split; [cbn; lia|intros ? ? ? ? []]|]. destruct IH as [I1 I2].
  pose proof (frames_fresh _ _ _ R) as Fr.
  destruct (dstep_inv _ _ _ H) as (Cr & [(u & U & ->)|(i & ch & t & g' & t' & sp & -> & N & T & ->)]); cbn [s_srv]; [split; auto|].
  assert (Blt : forall c, conn_of t = Some c -> c < v_n (s_srv s)) by (intros c; apply (belongs_lt _ _ _ _ _ _ R N)).
  assert (Len : forall c k b m, In (LFrame c k b m) (slog s) -> k < c_next (v_conn (s_srv s) c)) by (intros; eapply frame_below; eauto).
  inv_tstep T; cbn [v_log v_n v_conn log crash with_conn with_ops set_shutdown] in *; (split; [intros c' L|intros c' k' b' m' In_]);
    rewrite ?frames_snoc, ?app_nil_r in *; try (apply I1; assumption); try (eapply I2; eassumption).
  all: try (apply in_app_or in In_ as [In_|[D|[]]]; [|discriminate D]; eapply I2; eassumption).
  all: try (unfold upd; destruct (Nat.eqb_spec c' c) as [->|]; cbn; rewrite I1 by assumption; reflexivity).
  all: try (specialize (Blt c eq_refl)).
  all: try (rewrite app_length; unfold upd; destruct (Nat.eqb_spec c' c) as [->|D]; [rewrite Nat.eqb_refl|destruct (Nat.eqb_spec c c'); [congruence|]]; cbn; rewrite I1 by assumption; lia).
  all: try (apply in_app_or in In_ as [In_|[D|[]]];
    [rewrite nth_error_app1; [eapply I2; eassumption|apply nth_error_Some; rewrite (I2 _ _ _ _ In_); discriminate]
    |injection D as <- <- <- <-; rewrite Nat.eqb_refl, nth_error_app2 by (rewrite I1 by assumption; lia); rewrite I1, Nat.sub_diag by assumption; reflexivity]).
  unfold upd. destruct (Nat.eqb_spec c' (v_n (s_srv s))) as [->|]; [rewrite Fr by lia; reflexivity|]. apply I1. lia.
Qed.
Lemma frame_nth buf ok s c k b m : dreach buf ok s -> In (LFrame c k b m) (slog s) -> nth_error (frames c (slog s)) k = Some b.
Proof. intros R. apply (proj2 (frames_number _ _ _ R)). Qed.
