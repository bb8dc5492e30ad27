(* The in-memory transport under a server: the work left in all calls together. *)
From Coq Require Import List Arith NArith ZArith Lia Bool.
From Verif Require Import BaseBytes BaseConc ModelMessage ModelWrite ModelMemchan SpecWire SpecWrite SpecMemchan SpecWaits.
From Verif Require Import ProofMemchan ProofMemchan2 ProofMemchan4 ProofMemchan5 ProofWaits2.
Import ListNotations.
Open Scope nat_scope.

Fixpoint total {A} (f : A -> nat) (l : list A) : nat := match l with [] => 0 | x :: r => f x + total f r end.
Lemma total_app {A} (f : A -> nat) l1 l2 : total f (l1 ++ l2) = total f l1 + total f l2.
Proof. induction l1; cbn; lia. Qed.
Lemma total_set {A} (f : A -> nat) l i x y : nth_error l i = Some y -> total f (set_nth l i x) + f y = total f l + f x.
Proof. intros H. destruct (set_nth_split l i y H) as (l1 & l2 & -> & _ & ->). rewrite !total_app. cbn. lia. Qed.
Lemma total_mono {A} (f g : A -> nat) l : (forall x, f x <= g x) -> total f l <= total g l.
Proof. intros H. induction l as [|a l IH]; cbn; [lia|]. specialize (H a). lia. Qed.
Lemma total_in {A} (f : A -> nat) l i x : nth_error l i = Some x -> f x <= total f l.
Proof. intros H. destruct (set_nth_split l i x H) as (l1 & l2 & -> & _ & _). rewrite total_app. cbn. lia. Qed.

(* connections that are there or may come by the dials begun *)
Definition dials (t : thread) : bool := match t with TDial _ (DlDone _) => false | TDial _ _ => true | _ => false end.
Definition width (s : sys) : nat := length (n_conns (s_net s)) + count dials (s_ts s).
(* steps left in a call *)
Definition lf (d : nat) (t : thread) : nat :=
  match t with TDown ShCAS => 7 * d + 4 | TDown ShList => 7 * d + 3 | _ => left_ t end.
Lemma lf_mono d d' t : d' <= d -> lf d' t <= lf d t.
Proof. intros L. destruct t as [| | | |[]]; cbn; lia. Qed.
(* messages of clients not yet acknowledged *)
Definition unacked (t : thread) : nat := match t with TWrite (_, Clt) (WReset _ | WDone _) => 0 | TWrite (_, Clt) _ => 1 | _ => 0 end.
(* what the server reads *)
Definition takes (t : thread) : bool := match t with TRead (_, Srv) _ _ (RdDone (RdOk _ | RdBad) | RdFail (RdOk _ | RdBad) _) => true | _ => false end.
Definition is_chwrite (ch : choice) : bool := match ch with ChWrite _ => true | _ => false end.


Lemma filter_len (f : nat -> bool) l : length (filter f l) <= length l.
Proof. induction l as [|a l IH]; cbn; [lia|]. destruct (f a); cbn; lia. Qed.
Lemma end_conns i t s n : n_conns (end_close i t s n) = n_conns n.
Proof. destruct t as [|? ? ? []|[]| |[]], s; reflexivity. Qed.
Lemma own_width ts i n t n' t' w : trel ts i n t n' t' w ->
  length (n_conns n') + b2i (dials t') <= length (n_conns n) + b2i (dials t) /\ b2i (dials t') <= b2i (dials t).
Proof.
  intros T. tcases T k st n1 s1 H1 H0.
  - inversion H1; subst; netu; netc; cbn; lia.
  - inversion H1; subst; netu; netc; cbn; lia.
  - rewrite end_conns. assert (L : length (n_conns n1) <= length (n_conns n)).
    { inversion H0; subst; netu; netc; auto. apply filter_len. }
    assert (Z : dials (to_close t s1) = false /\ dials t = false).
    { destruct t as [|? ? ? []|[]| |[]]; try discriminate H1; destruct s1; auto. }
    destruct Z as [-> ->]. cbn. lia.
  - inversion H1; subst; netu; netc; cbn; try lia. destruct (existsb _ _); cbn; lia.
  - inversion H1; subst; netu; netc; cbn; lia.
Qed.
Lemma same_len l l' : same_elements l l' = true -> length l = length l'.
Proof. unfold same_elements. rewrite !andb_true_iff. intros [[H _] _]. apply Nat.eqb_eq, H. Qed.
Lemma own_lf ts i n t n' t' w d : trel ts i n t n' t' w -> length (n_conns n) <= d ->
  n_crashed n' = true \/ lf d t' < lf d t \/ exists k, t = TWrite k WOpen /\ t' = t.
Proof.
  intros T L. destruct (listed t) eqn:Li.
  - destruct (own_less _ _ _ _ _ _ _ T Li) as [Li' [Q|[Q|[Q _]]]]; auto. right. left.
    destruct t as [| | | |[]], t' as [| | | |[]]; try discriminate Li; try discriminate Li'; exact Q.
  - destruct t as [| | | |[]]; try discriminate Li; right; left.
    + inversion T as [| |? ? ? ? ? ? Cl|?|? ? s' H]; subst; [discriminate Cl|]. inversion H; subst; cbn; lia.
    + inversion T as [| |? ? ? ? ? ? Cl|?|? ? s' H]; subst; [discriminate Cl|]. inversion H as [| |l0 Q| |]; subst. cbn [lf left_]. rewrite (same_len _ _ Q). lia.
Qed.
Lemma own_takes ts i n t n' t' w : trel ts i n t n' t' w -> takes t' = true -> takes t = true \/
  exists j v p, w = Some (j, v) /\ nth_error ts j = Some (TWrite (p, Clt) WParked).
Proof.
  intros T Tk. tcases T k st n1 s1 H1 H0.
  - discriminate Tk.
  - destruct k as [p []]; [|discriminate Tk]. inversion H1; subst; try discriminate Tk. right. exists j, WrRead, p. auto.
  - left. destruct t as [|k0 m d []|k0 c0| |[]]; try discriminate H1; injection H1 as <- <-; destruct s1; try discriminate Tk; exact Tk.
  - discriminate Tk.
  - discriminate Tk.
Qed.
Lemma own_unacked ts i n t n' t' w : trel ts i n t n' t' w -> unacked t' <= unacked t.
Proof.
  intros T. tcases T k st n1 s1 H1 H0; [|cbn; lia|destruct t as [|? ? ? []| | |[]]; try discriminate H1; destruct s1; cbn; lia|cbn; lia|cbn; lia].
  inversion H1; subst; destruct k as [q []]; cbn; lia.
Qed.
Lemma wopen_write' s j k ch s' : nth_error (s_ts s) j = Some (TWrite k WOpen) -> mstep s (EvStep j ch) = Some s' -> nth_error (s_ts s') j = Some (TWrite k WOpen) -> is_chwrite ch = true.
Proof.
  unfold mstep. intros J E N. destruct (n_crashed (s_net s)); [discriminate|]. rewrite J in E.
  destruct (tstep (s_ts s) j (s_net s) (TWrite k WOpen) ch) as [[[n' u'] w]|] eqn:T; [|discriminate].
  assert (u' = TWrite k WOpen /\ w = None).
  { pose proof (step_rel _ _ _ _ _ _ _ _ T) as Tr. inversion Tr as [| |? ? ? ? ? ? Cl| |]; subst; [|discriminate Cl]. cbn in E. injection E as <-.
    cbn in N. rewrite (set_nth_eq _ _ _ _ J) in N. injection N as <-. auto. }
  destruct H as [-> ->]. apply wopen_write in T as [p ->]. reflexivity.
Qed.
(* one step of a call *)
Lemma net_step s j ch s' : mstep s (EvStep j ch) = Some s' ->
  exists t t', nth_error (s_ts s) j = Some t /\ nth_error (s_ts s') j = Some t' /\ length (s_ts s') = length (s_ts s) /\
    (forall x, x <> j -> forall u', nth_error (s_ts s') x = Some u' -> takes u' = true -> nth_error (s_ts s) x = Some u') /\
    width s' <= width s /\ count dials (s_ts s') + b2i (dials t) <= count dials (s_ts s) + b2i (dials t') /\
    total unacked (s_ts s') + (b2i (takes t') - b2i (takes t)) <= total unacked (s_ts s) /\
    (n_crashed (s_net s') = true \/ total (lf (width s')) (s_ts s') + (if is_chwrite ch then 0 else 1) <= total (lf (width s)) (s_ts s)) /\
    exists n' w, trel (s_ts s) j (s_net s) t n' t' w.
Proof.
  intros M. pose proof M as M0. apply mstep_rel in M as [_ M]. inversion M as [e t B|i c t n' t' N T|i c t n' t' y v k N T Ne V J]; subst; [discriminate B| |]; exists t, t'.
  - cbn [s_ts s_net] in *. rewrite (set_nth_eq _ _ _ _ N). split; [exact N|]. split; [reflexivity|]. split; [apply set_nth_length|].
    split; [intros x Nx u' Q _; rewrite set_nth_ne in Q by auto; exact Q|].
    pose proof (count_set dials (s_ts s) j t' t N) as Cd. pose proof (total_set unacked (s_ts s) j t' t N) as Tu.
    pose proof (own_width _ _ _ _ _ _ _ T) as [W1 W2].
    assert (Wd : width (MkSys n' (set_nth (s_ts s) j t')) <= width s) by (unfold width; cbn [s_ts s_net]; lia).
    split; [exact Wd|]. split; [lia|]. split.
    { pose proof (own_unacked _ _ _ _ _ _ _ T). destruct (takes t') eqn:Tk; [|cbn; lia].
      destruct (own_takes _ _ _ _ _ _ _ T Tk) as [Q|(? & ? & ? & D & _)]; [rewrite Q; cbn; lia|discriminate D]. }
    split; [|eauto]. destruct (own_lf _ _ _ _ _ _ _ (width s) T) as [Q|[Q|(k & -> & ->)]]; [unfold width; lia|left; exact Q| |]; right.
    + pose proof (total_set (lf (width s)) (s_ts s) j t' t N). pose proof (total_mono _ _ (set_nth (s_ts s) j t') (fun x => lf_mono _ _ x Wd)). destruct (is_chwrite ch); lia.
    + rewrite (wopen_write' _ _ _ _ _ N M0) by (cbn [s_ts]; exact (set_nth_eq _ _ _ _ N)).
      pose proof (total_set (lf (width s)) (s_ts s) j (TWrite k WOpen) _ N). pose proof (total_mono _ _ (set_nth (s_ts s) j (TWrite k WOpen)) (fun x => lf_mono _ _ x Wd)). lia.
  - assert (N1 : nth_error (set_nth (s_ts s) j t') y = Some (TWrite k WParked)) by (rewrite set_nth_ne by auto; exact J).
    cbn [s_ts s_net] in *. rewrite set_nth_ne by auto. rewrite (set_nth_eq _ _ _ _ N). split; [exact N|]. split; [reflexivity|]. split; [rewrite !set_nth_length; reflexivity|].
    split; [intros x Nx u' Q Tk; destruct (Nat.eq_dec x y) as [->|Ny]; [rewrite (set_nth_eq _ _ _ _ N1) in Q; injection Q as <-; discriminate Tk|rewrite !set_nth_ne in Q by auto; exact Q]|].
    pose proof (count_set dials (s_ts s) j t' t N) as Cd. pose proof (total_set unacked (s_ts s) j t' t N) as Tu.
    pose proof (count_set dials _ y (TWrite k (WReset v)) _ N1) as Cd1. pose proof (total_set unacked _ y (TWrite k (WReset v)) _ N1) as Tu1. cbn [dials b2i] in Cd1.
    pose proof (own_width _ _ _ _ _ _ _ T) as [W1 W2].
    assert (Ew : n_conns (set_wlk k None n') = n_conns n') by reflexivity.
    set (ts' := set_nth (set_nth (s_ts s) j t') y (TWrite k (WReset v))) in *.
    assert (Wd : width (MkSys (set_wlk k None n') ts') <= width s) by (unfold width; cbn [s_ts s_net]; rewrite Ew; lia).
    split; [exact Wd|]. split; [lia|]. split.
    { pose proof (own_unacked _ _ _ _ _ _ _ T). assert (Up : unacked (TWrite k (WReset v)) <= unacked (TWrite k WParked)) by (destruct k as [? []]; cbn; lia).
      destruct (takes t') eqn:Tk; [|cbn [b2i]; lia].
      destruct (own_takes _ _ _ _ _ _ _ T Tk) as [Q|(y1 & v1 & p & Q & J')]; [rewrite Q; cbn [b2i]; lia|].
      injection Q as <- <-. rewrite J in J'. injection J' as ->.
      change (unacked (TWrite (p, Clt) (WReset v))) with 0 in Tu1. change (unacked (TWrite (p, Clt) WParked)) with 1 in Tu1. cbn [b2i]. destruct (takes t); cbn [b2i]; lia. }
    split; [|eauto]. destruct (own_lf _ _ _ _ _ _ _ (width s) T) as [Q|[Q|(k' & -> & ->)]]; [unfold width; lia|left; exact Q| |]; right.
    + pose proof (total_set (lf (width s)) (s_ts s) j t' t N). pose proof (total_set (lf (width s)) _ y (TWrite k (WReset v)) _ N1) as Q1. cbn [lf left_] in Q1. fold ts' in Q1.
      pose proof (total_mono _ _ ts' (fun x => lf_mono _ _ x Wd)). destruct (is_chwrite ch); lia.
    + exfalso. inversion T as [| |? ? ? ? ? ? Cl| |]; subst. discriminate Cl.
Qed.
Lemma net_begin s e t s' : begin e = Some t -> mstep s e = Some s' -> s' = MkSys (s_net s) (s_ts s ++ [t]).
Proof. intros B M. apply mstep_rel in M as [_ M]. inversion M; subst; try discriminate B. congruence. Qed.
