(* Runs of ModelAccess given by their moves, and locks that stay taken. *)
From Coq Require Import List Arith Bool Lia.
From Verif Require Import BaseConc ModelAccess SpecAccess ProofAccess ProofAccess2.
Import ListNotations.
Open Scope nat_scope.

(* call q; goroutine i goes on: acts, or takes the first or the second way; its hook calls q *)
Inductive move := Call (q : call) | Go (i : nat) | Go2 (i : nat) | GoHook (i : nat) (q : call).
Definition turn (s : state) (m : move) : option state :=
  let set i k := Some (MkState (st_locks s) (set_nth (st_threads s) i k)) in
  match m with
  | Call q => Some (MkState (st_locks s) (st_threads s ++ [[code_of q]]))
  | Go i =>
      match nth_error (st_threads s) i with
      | Some (Nop :: k) => set i k
      | Some (Do a :: k) => match effect (st_locks s) a with Some l => Some (MkState l (set_nth (st_threads s) i k)) | None => None end
      | Some (Seq c d :: k) => set i (c :: d :: k)
      | Some (Alt c d :: k) => set i (c :: k)
      | Some (Rep c :: k) => set i k
      | Some (Any f :: k) => set i (f 0 :: k)
      | Some (IfFilled c :: k) => set i k
      | Some (Hook _ :: k) => set i k
      | _ => None
      end
  | Go2 i =>
      match nth_error (st_threads s) i with
      | Some (Alt c d :: k) => set i (d :: k)
      | Some (Rep c :: k) => set i (c :: Rep c :: k)
      | Some (IfFilled c :: k) => set i (c :: k)
      | _ => None
      end
  | GoHook i q => match nth_error (st_threads s) i with Some (Hook b :: k) => set i (code_of q :: Hook b :: k) | _ => None end
  end.
Fixpoint turns (s : state) (ms : list move) : option state :=
  match ms with [] => Some s | m :: ms => match turn s m with Some s' => turns s' ms | None => None end end.
Definition may (p : policy) (s : state) (m : move) : Prop :=
  match m with
  | Call q => p_call p q
  | GoHook i q => match nth_error (st_threads s) i with Some (Hook b :: _) => if b then p_inner p q else p_call p q | _ => True end
  | Go i => match nth_error (st_threads s) i with Some (IfFilled _ :: _) => p_empty p | _ => True end
  | Go2 _ => True
  end.
Fixpoint mays (p : policy) (s : state) (ms : list move) : Prop :=
  match ms with [] => True | m :: ms => may p s m /\ match turn s m with Some s' => mays p s' ms | None => True end end.
Lemma turn_step p s m s' : may p s m -> turn s m = Some s' -> step p s s'.
Proof.
  destruct m as [q|i|i|i q]; cbn; intros M H.
  - injection H as <-. constructor; auto.
  - destruct (nth_error (st_threads s) i) as [[|c k]|] eqn:E; try discriminate.
    destruct c; try (injection H as <-; eapply St_silent; [exact E|constructor; auto]).
    + destruct (effect (st_locks s) a) as [l|] eqn:Ef; [|discriminate]. injection H as <-. eapply St_act; [exact E|constructor|exact Ef].
  - destruct (nth_error (st_threads s) i) as [[|c k]|] eqn:E; try discriminate.
    destruct c; try discriminate; injection H as <-; eapply St_silent; try exact E; constructor.
  - destruct (nth_error (st_threads s) i) as [[|c k]|] eqn:E; try discriminate.
    destruct c; try discriminate; injection H as <-; eapply St_silent; try exact E; constructor; auto.
Qed.
Lemma turns_reach p ms : forall s s', areach p s -> mays p s ms -> turns s ms = Some s' -> areach p s'.
Proof.
  induction ms as [|m ms IH]; cbn; intros s s' R M H; [congruence|]. destruct M as [M Ms].
  destruct (turn s m) as [s1|] eqn:E; [|discriminate]. eapply IH; [|exact Ms|exact H]. eapply AR_step; [exact R|]. eapply turn_step; eauto.
Qed.

Lemma Forall2_length {A B} (R : A -> B -> Prop) l l' : Forall2 R l l' -> length l = length l'.
Proof. induction 1; cbn; auto. Qed.

(* goroutine i is stuck if lock l stays taken *)
Definition stuck_on (l : lock) (k : list code) : Prop := k = [] \/ exists k', k = Do (Lk l) :: k' \/ k = Do (RLk l) :: k'.
Theorem for_good p s s' i k l : areach p s -> nth_error (st_threads s) i = Some k -> stuck_on l k -> length (st_threads s) = 1 ->
  fst (st_locks s l) = true -> later p s s' -> nth_error (st_threads s') i = Some k /\ st_locks s' l = (true, 0).
Proof.
  intros R Hk St Len Lk La.
  assert (forall q, p_call p q \/ p_inner p q -> fine (lax_some (fun _ => True)) (code_of q)) as PF by (intros; apply fine_free).
  assert (nth_error (st_threads s') i = Some k /\ exists As', inv (lax_some (fun _ => True)) As' s' /\ exists A, nth_error As' i = Some A /\ 1 <= count (l, true) A) as [H (As & I & A & HA & C)].
  { induction La as [|s1 s2 La IH Stp].
    - split; auto. destruct (inv_reach _ _ PF _ R) as [As I]. exists As; split; auto.
      destruct I as [F T]. pose proof (Forall2_length _ _ _ F) as LF. rewrite Len in LF. destruct As as [|A [|]]; try discriminate.
      assert (i = 0) by (assert (i < length (st_threads s)) by (apply nth_error_Some; congruence); lia). subst i. exists A; split; auto.
      destruct (T l) as (T1 & _). rewrite Lk in T1. cbn in T1. lia.
    - destruct IH as [H (As & I & X)]. eapply (stays_step _ p PF As s1 s2 i k l); eauto.
      intros o k' N. destruct St as [->|(k1 & [-> | ->])]; [inversion N| |]; inversion N; subst; (eexists; split; [reflexivity|]);
      intros t Ht; cbn; destruct (st_locks t l) as [e n]; cbn in Ht; subst e; reflexivity. }
  split; auto. pose proof (total_one (l, true) _ _ _ HA). destruct I as [_ T]. destruct (T l) as (T1 & _ & T3).
  destruct (st_locks s' l) as [e n]; cbn in *. destruct e; [|lia]. rewrite T3 by auto. reflexivity.
Qed.

(* the moves of goroutine i that takes these ways where there is a choice, until there is none left to take *)
Fixpoint plan (fuel : nat) (s : state) (i : nat) (bs : list bool) : list move :=
  match fuel with
  | 0 => []
  | S fuel =>
      let go m bs := match turn s m with Some s' => m :: plan fuel s' i bs | None => [] end in
      match nth_error (st_threads s) i with
      | Some ((Alt _ _ | Rep _ | IfFilled _) :: _) => match bs with [] => [] | b :: bs => go (if b then Go2 i else Go i) bs end
      | Some (_ :: _) => go (Go i) bs
      | _ => []
      end
  end.
