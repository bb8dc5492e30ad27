(* The in-memory transport: steps as a relation, locks and buffers. *)
From Coq Require Import List Arith NArith ZArith Lia Bool.
From Verif Require Import BaseBytes BaseConc ModelMessage ModelWrite ModelMemchan SpecWire SpecWrite SpecMemchan.
Import ListNotations.
Open Scope nat_scope.

(* ----- sockets and updates ----- *)
Lemma sock_eqb_spec a b : reflect (a = b) (sock_eqb a b).
Proof.
  destruct a as [p a], b as [q b]. unfold sock_eqb. cbn [fst snd].
  destruct (Nat.eqb_spec p q) as [Q|D]; [|constructor; congruence].
  destruct a, b; cbn; constructor; congruence.
Qed.
Lemma sock_eqb_refl a : sock_eqb a a = true.
Proof. destruct (sock_eqb_spec a a); congruence. Qed.
Lemma remote_remote k : remote (remote k) = k.
Proof. destruct k as [p []]; reflexivity. Qed.
Lemma remote_ne k : sock_eqb (remote k) k = false.
Proof. destruct k as [p []]; unfold sock_eqb; cbn; rewrite Nat.eqb_refl; reflexivity. Qed.
Lemma remote_ne' k : sock_eqb k (remote k) = false.
Proof. destruct k as [p []]; unfold sock_eqb; cbn; rewrite Nat.eqb_refl; reflexivity. Qed.
Lemma remote_self k : k <> remote k.
Proof. destruct k as [p []]; discriminate. Qed.
Lemma remote_inj a b : remote a = remote b -> a = b.
Proof. destruct a as [p []], b as [q []]; unfold remote; cbn; congruence. Qed.
Lemma remote_fst k : fst (remote k) = fst k.
Proof. reflexivity. Qed.
Lemma pair_sock j k : fst j = fst k -> j = k \/ j = remote k.
Proof. destruct j as [p []], k as [q []]; unfold remote; cbn; intros ->; auto. Qed.
Lemma upds_eq {A} (f : sock -> A) k x j : upds f k x j = if sock_eqb j k then x else f j.
Proof. reflexivity. Qed.
Lemma upd_eq {A} (f : nat -> A) k x j : upd f k x j = if j =? k then x else f j.
Proof. reflexivity. Qed.
Lemma buf_set_buf k o n j : u_buf (n_sock (set_buf k o n) j) = if sock_eqb j k then o else u_buf (n_sock n j).
Proof. unfold set_buf, set_sock. cbn. rewrite upds_eq. destruct (sock_eqb_spec j k) as [->|]; reflexivity. Qed.
Lemma blk_set_buf k o n j : u_blk (n_sock (set_buf k o n) j) = u_blk (n_sock n j).
Proof. unfold set_buf, set_sock. cbn. rewrite upds_eq. destruct (sock_eqb_spec j k) as [->|]; reflexivity. Qed.
Lemma wlk_set_buf k o n j : u_wlk (n_sock (set_buf k o n) j) = u_wlk (n_sock n j).
Proof. unfold set_buf, set_sock. cbn. rewrite upds_eq. destruct (sock_eqb_spec j k) as [->|]; reflexivity. Qed.
Lemma rlk_set_buf k o n j : u_rlk (n_sock (set_buf k o n) j) = u_rlk (n_sock n j).
Proof. unfold set_buf, set_sock. cbn. rewrite upds_eq. destruct (sock_eqb_spec j k) as [->|]; reflexivity. Qed.
Lemma klk_set_buf k o n j : u_klk (n_sock (set_buf k o n) j) = u_klk (n_sock n j).
Proof. unfold set_buf, set_sock. cbn. rewrite upds_eq. destruct (sock_eqb_spec j k) as [->|]; reflexivity. Qed.
Lemma gen_set_buf k o n j : u_gen (n_sock (set_buf k o n) j) = u_gen (n_sock n j).
Proof. unfold set_buf, set_sock. cbn. rewrite upds_eq. destruct (sock_eqb_spec j k) as [->|]; reflexivity. Qed.
Lemma on_set_buf k o n : n_on (set_buf k o n) = n_on n.
Proof. reflexivity. Qed.
Lemma chan_set_buf k o n : n_chan (set_buf k o n) = n_chan n.
Proof. reflexivity. Qed.
Lemma conns_set_buf k o n : n_conns (set_buf k o n) = n_conns n.
Proof. reflexivity. Qed.
Lemma active_set_buf k o n : n_active (set_buf k o n) = n_active n.
Proof. reflexivity. Qed.
Lemma crashed_set_buf k o n : n_crashed (set_buf k o n) = n_crashed n.
Proof. reflexivity. Qed.
Lemma log_set_buf k o n : n_log (set_buf k o n) = n_log n.
Proof. reflexivity. Qed.
Lemma buf_set_blk k o n j : u_buf (n_sock (set_blk k o n) j) = u_buf (n_sock n j).
Proof. unfold set_blk, set_sock. cbn. rewrite upds_eq. destruct (sock_eqb_spec j k) as [->|]; reflexivity. Qed.
Lemma blk_set_blk k o n j : u_blk (n_sock (set_blk k o n) j) = if sock_eqb j k then o else u_blk (n_sock n j).
Proof. unfold set_blk, set_sock. cbn. rewrite upds_eq. destruct (sock_eqb_spec j k) as [->|]; reflexivity. Qed.
Lemma wlk_set_blk k o n j : u_wlk (n_sock (set_blk k o n) j) = u_wlk (n_sock n j).
Proof. unfold set_blk, set_sock. cbn. rewrite upds_eq. destruct (sock_eqb_spec j k) as [->|]; reflexivity. Qed.
Lemma rlk_set_blk k o n j : u_rlk (n_sock (set_blk k o n) j) = u_rlk (n_sock n j).
Proof. unfold set_blk, set_sock. cbn. rewrite upds_eq. destruct (sock_eqb_spec j k) as [->|]; reflexivity. Qed.
Lemma klk_set_blk k o n j : u_klk (n_sock (set_blk k o n) j) = u_klk (n_sock n j).
Proof. unfold set_blk, set_sock. cbn. rewrite upds_eq. destruct (sock_eqb_spec j k) as [->|]; reflexivity. Qed.
Lemma gen_set_blk k o n j : u_gen (n_sock (set_blk k o n) j) = u_gen (n_sock n j).
Proof. unfold set_blk, set_sock. cbn. rewrite upds_eq. destruct (sock_eqb_spec j k) as [->|]; reflexivity. Qed.
Lemma on_set_blk k o n : n_on (set_blk k o n) = n_on n.
Proof. reflexivity. Qed.
Lemma chan_set_blk k o n : n_chan (set_blk k o n) = n_chan n.
Proof. reflexivity. Qed.
Lemma conns_set_blk k o n : n_conns (set_blk k o n) = n_conns n.
Proof. reflexivity. Qed.
Lemma active_set_blk k o n : n_active (set_blk k o n) = n_active n.
Proof. reflexivity. Qed.
Lemma crashed_set_blk k o n : n_crashed (set_blk k o n) = n_crashed n.
Proof. reflexivity. Qed.
Lemma log_set_blk k o n : n_log (set_blk k o n) = n_log n.
Proof. reflexivity. Qed.
Lemma buf_set_wlk k o n j : u_buf (n_sock (set_wlk k o n) j) = u_buf (n_sock n j).
Proof. unfold set_wlk, set_sock. cbn. rewrite upds_eq. destruct (sock_eqb_spec j k) as [->|]; reflexivity. Qed.
Lemma blk_set_wlk k o n j : u_blk (n_sock (set_wlk k o n) j) = u_blk (n_sock n j).
Proof. unfold set_wlk, set_sock. cbn. rewrite upds_eq. destruct (sock_eqb_spec j k) as [->|]; reflexivity. Qed.
Lemma wlk_set_wlk k o n j : u_wlk (n_sock (set_wlk k o n) j) = if sock_eqb j k then o else u_wlk (n_sock n j).
Proof. unfold set_wlk, set_sock. cbn. rewrite upds_eq. destruct (sock_eqb_spec j k) as [->|]; reflexivity. Qed.
Lemma rlk_set_wlk k o n j : u_rlk (n_sock (set_wlk k o n) j) = u_rlk (n_sock n j).
Proof. unfold set_wlk, set_sock. cbn. rewrite upds_eq. destruct (sock_eqb_spec j k) as [->|]; reflexivity. Qed.
Lemma klk_set_wlk k o n j : u_klk (n_sock (set_wlk k o n) j) = u_klk (n_sock n j).
Proof. unfold set_wlk, set_sock. cbn. rewrite upds_eq. destruct (sock_eqb_spec j k) as [->|]; reflexivity. Qed.
Lemma gen_set_wlk k o n j : u_gen (n_sock (set_wlk k o n) j) = u_gen (n_sock n j).
Proof. unfold set_wlk, set_sock. cbn. rewrite upds_eq. destruct (sock_eqb_spec j k) as [->|]; reflexivity. Qed.
Lemma on_set_wlk k o n : n_on (set_wlk k o n) = n_on n.
Proof. reflexivity. Qed.
Lemma chan_set_wlk k o n : n_chan (set_wlk k o n) = n_chan n.
Proof. reflexivity. Qed.
Lemma conns_set_wlk k o n : n_conns (set_wlk k o n) = n_conns n.
Proof. reflexivity. Qed.
Lemma active_set_wlk k o n : n_active (set_wlk k o n) = n_active n.
Proof. reflexivity. Qed.
Lemma crashed_set_wlk k o n : n_crashed (set_wlk k o n) = n_crashed n.
Proof. reflexivity. Qed.
Lemma log_set_wlk k o n : n_log (set_wlk k o n) = n_log n.
Proof. reflexivity. Qed.
Lemma buf_set_rlk k o n j : u_buf (n_sock (set_rlk k o n) j) = u_buf (n_sock n j).
Proof. unfold set_rlk, set_sock. cbn. rewrite upds_eq. destruct (sock_eqb_spec j k) as [->|]; reflexivity. Qed.
Lemma blk_set_rlk k o n j : u_blk (n_sock (set_rlk k o n) j) = u_blk (n_sock n j).
Proof. unfold set_rlk, set_sock. cbn. rewrite upds_eq. destruct (sock_eqb_spec j k) as [->|]; reflexivity. Qed.
Lemma wlk_set_rlk k o n j : u_wlk (n_sock (set_rlk k o n) j) = u_wlk (n_sock n j).
Proof. unfold set_rlk, set_sock. cbn. rewrite upds_eq. destruct (sock_eqb_spec j k) as [->|]; reflexivity. Qed.
Lemma rlk_set_rlk k o n j : u_rlk (n_sock (set_rlk k o n) j) = if sock_eqb j k then o else u_rlk (n_sock n j).
Proof. unfold set_rlk, set_sock. cbn. rewrite upds_eq. destruct (sock_eqb_spec j k) as [->|]; reflexivity. Qed.
Lemma klk_set_rlk k o n j : u_klk (n_sock (set_rlk k o n) j) = u_klk (n_sock n j).
Proof. unfold set_rlk, set_sock. cbn. rewrite upds_eq. destruct (sock_eqb_spec j k) as [->|]; reflexivity. Qed.
Lemma gen_set_rlk k o n j : u_gen (n_sock (set_rlk k o n) j) = u_gen (n_sock n j).
Proof. unfold set_rlk, set_sock. cbn. rewrite upds_eq. destruct (sock_eqb_spec j k) as [->|]; reflexivity. Qed.
Lemma on_set_rlk k o n : n_on (set_rlk k o n) = n_on n.
Proof. reflexivity. Qed.
Lemma chan_set_rlk k o n : n_chan (set_rlk k o n) = n_chan n.
Proof. reflexivity. Qed.
Lemma conns_set_rlk k o n : n_conns (set_rlk k o n) = n_conns n.
Proof. reflexivity. Qed.
Lemma active_set_rlk k o n : n_active (set_rlk k o n) = n_active n.
Proof. reflexivity. Qed.
Lemma crashed_set_rlk k o n : n_crashed (set_rlk k o n) = n_crashed n.
Proof. reflexivity. Qed.
Lemma log_set_rlk k o n : n_log (set_rlk k o n) = n_log n.
Proof. reflexivity. Qed.
Lemma buf_set_klk k o n j : u_buf (n_sock (set_klk k o n) j) = u_buf (n_sock n j).
Proof. unfold set_klk, set_sock. cbn. rewrite upds_eq. destruct (sock_eqb_spec j k) as [->|]; reflexivity. Qed.
Lemma blk_set_klk k o n j : u_blk (n_sock (set_klk k o n) j) = u_blk (n_sock n j).
Proof. unfold set_klk, set_sock. cbn. rewrite upds_eq. destruct (sock_eqb_spec j k) as [->|]; reflexivity. Qed.
Lemma wlk_set_klk k o n j : u_wlk (n_sock (set_klk k o n) j) = u_wlk (n_sock n j).
Proof. unfold set_klk, set_sock. cbn. rewrite upds_eq. destruct (sock_eqb_spec j k) as [->|]; reflexivity. Qed.
Lemma rlk_set_klk k o n j : u_rlk (n_sock (set_klk k o n) j) = u_rlk (n_sock n j).
Proof. unfold set_klk, set_sock. cbn. rewrite upds_eq. destruct (sock_eqb_spec j k) as [->|]; reflexivity. Qed.
Lemma klk_set_klk k o n j : u_klk (n_sock (set_klk k o n) j) = if sock_eqb j k then o else u_klk (n_sock n j).
Proof. unfold set_klk, set_sock. cbn. rewrite upds_eq. destruct (sock_eqb_spec j k) as [->|]; reflexivity. Qed.
Lemma gen_set_klk k o n j : u_gen (n_sock (set_klk k o n) j) = u_gen (n_sock n j).
Proof. unfold set_klk, set_sock. cbn. rewrite upds_eq. destruct (sock_eqb_spec j k) as [->|]; reflexivity. Qed.
Lemma on_set_klk k o n : n_on (set_klk k o n) = n_on n.
Proof. reflexivity. Qed.
Lemma chan_set_klk k o n : n_chan (set_klk k o n) = n_chan n.
Proof. reflexivity. Qed.
Lemma conns_set_klk k o n : n_conns (set_klk k o n) = n_conns n.
Proof. reflexivity. Qed.
Lemma active_set_klk k o n : n_active (set_klk k o n) = n_active n.
Proof. reflexivity. Qed.
Lemma crashed_set_klk k o n : n_crashed (set_klk k o n) = n_crashed n.
Proof. reflexivity. Qed.
Lemma log_set_klk k o n : n_log (set_klk k o n) = n_log n.
Proof. reflexivity. Qed.
Lemma buf_set_gen k o n j : u_buf (n_sock (set_gen k o n) j) = u_buf (n_sock n j).
Proof. unfold set_gen, set_sock. cbn. rewrite upds_eq. destruct (sock_eqb_spec j k) as [->|]; reflexivity. Qed.
Lemma blk_set_gen k o n j : u_blk (n_sock (set_gen k o n) j) = u_blk (n_sock n j).
Proof. unfold set_gen, set_sock. cbn. rewrite upds_eq. destruct (sock_eqb_spec j k) as [->|]; reflexivity. Qed.
Lemma wlk_set_gen k o n j : u_wlk (n_sock (set_gen k o n) j) = u_wlk (n_sock n j).
Proof. unfold set_gen, set_sock. cbn. rewrite upds_eq. destruct (sock_eqb_spec j k) as [->|]; reflexivity. Qed.
Lemma rlk_set_gen k o n j : u_rlk (n_sock (set_gen k o n) j) = u_rlk (n_sock n j).
Proof. unfold set_gen, set_sock. cbn. rewrite upds_eq. destruct (sock_eqb_spec j k) as [->|]; reflexivity. Qed.
Lemma klk_set_gen k o n j : u_klk (n_sock (set_gen k o n) j) = u_klk (n_sock n j).
Proof. unfold set_gen, set_sock. cbn. rewrite upds_eq. destruct (sock_eqb_spec j k) as [->|]; reflexivity. Qed.
Lemma gen_set_gen k o n j : u_gen (n_sock (set_gen k o n) j) = if sock_eqb j k then o else u_gen (n_sock n j).
Proof. unfold set_gen, set_sock. cbn. rewrite upds_eq. destruct (sock_eqb_spec j k) as [->|]; reflexivity. Qed.
Lemma on_set_gen k o n : n_on (set_gen k o n) = n_on n.
Proof. reflexivity. Qed.
Lemma chan_set_gen k o n : n_chan (set_gen k o n) = n_chan n.
Proof. reflexivity. Qed.
Lemma conns_set_gen k o n : n_conns (set_gen k o n) = n_conns n.
Proof. reflexivity. Qed.
Lemma active_set_gen k o n : n_active (set_gen k o n) = n_active n.
Proof. reflexivity. Qed.
Lemma crashed_set_gen k o n : n_crashed (set_gen k o n) = n_crashed n.
Proof. reflexivity. Qed.
Lemma log_set_gen k o n : n_log (set_gen k o n) = n_log n.
Proof. reflexivity. Qed.
Lemma sock_set_chan k g h n : n_sock (set_chan k g h n) = n_sock n.
Proof. reflexivity. Qed.
Lemma sock_set_on p b n : n_sock (set_on p b n) = n_sock n.
Proof. reflexivity. Qed.
Lemma sock_set_conns l n : n_sock (set_conns l n) = n_sock n.
Proof. reflexivity. Qed.
Lemma sock_set_active b n : n_sock (set_active b n) = n_sock n.
Proof. reflexivity. Qed.
Lemma sock_log e n : n_sock (log e n) = n_sock n.
Proof. reflexivity. Qed.
Lemma sock_crash n : n_sock (crash n) = n_sock n.
Proof. reflexivity. Qed.
Lemma chan_set_chan k g h n j x :
  n_chan (set_chan k g h n) j x = if sock_eqb j k then if x =? g then h else n_chan n k x else n_chan n j x.
Proof. unfold set_chan. cbn. rewrite upds_eq. destruct (sock_eqb_spec j k) as [->|]; [rewrite upd_eq|]; reflexivity. Qed.
Lemma on_set_on p b n q : n_on (set_on p b n) q = if q =? p then b else n_on n q.
Proof. reflexivity. Qed.
Global Hint Rewrite sock_set_chan sock_set_on sock_set_conns sock_set_active sock_log sock_crash chan_set_chan on_set_on sock_eqb_refl remote_ne remote_ne' remote_remote remote_fst Nat.eqb_refl
  buf_set_buf blk_set_buf wlk_set_buf rlk_set_buf klk_set_buf gen_set_buf buf_set_blk blk_set_blk wlk_set_blk rlk_set_blk klk_set_blk gen_set_blk buf_set_wlk blk_set_wlk wlk_set_wlk rlk_set_wlk klk_set_wlk gen_set_wlk buf_set_rlk blk_set_rlk wlk_set_rlk rlk_set_rlk klk_set_rlk gen_set_rlk buf_set_klk blk_set_klk wlk_set_klk rlk_set_klk klk_set_klk gen_set_klk buf_set_gen blk_set_gen wlk_set_gen rlk_set_gen klk_set_gen gen_set_gen
  on_set_buf chan_set_buf conns_set_buf active_set_buf crashed_set_buf log_set_buf on_set_blk chan_set_blk conns_set_blk active_set_blk crashed_set_blk log_set_blk on_set_wlk chan_set_wlk conns_set_wlk active_set_wlk crashed_set_wlk log_set_wlk on_set_rlk chan_set_rlk conns_set_rlk active_set_rlk crashed_set_rlk log_set_rlk on_set_klk chan_set_klk conns_set_klk active_set_klk crashed_set_klk log_set_klk on_set_gen chan_set_gen conns_set_gen active_set_gen crashed_set_gen log_set_gen : net.
Arguments set_buf : simpl never.
Arguments set_blk : simpl never.
Arguments set_wlk : simpl never.
Arguments set_rlk : simpl never.
Arguments set_klk : simpl never.
Arguments set_gen : simpl never.
Arguments set_chan : simpl never.
Arguments remote : simpl never.

(* ----- steps as a relation ----- *)
Definition to_close (t : thread) (s : clstate) : thread :=
  match t, s with
  | TClose k _, _ => TClose k s
  | TRead k m d (RdFail r _), ClDone => TRead k m d (RdDone r)
  | TRead k m d (RdFail r _), _ => TRead k m d (RdFail r s)
  | TDown (ShIn p _ todo), ClDone => TDown (ShLoop todo)
  | TDown (ShIn p _ todo), _ => TDown (ShIn p s todo)
  | _, _ => t
  end.
Definition end_close (i : nat) (t : thread) (s : clstate) (n : net) : net :=
  match t, s with
  | TRead k _ _ (RdFail r _), ClDone => log (LReader i k r) (set_rlk k None n)
  | _, _ => n
  end.
Section Rel.
Variables (ts : list thread) (i : nat) (n : net).
Inductive wrel (k : sock) : wstate -> net -> wstate -> Prop :=
| W_open : u_wlk (n_sock n k) = None -> n_on n (fst k) = true ->
    wrel k WGet (log (LOpen i k) (set_wlk k (Some i) n)) WOpen
| W_disc : u_wlk (n_sock n k) = None -> n_on n (fst k) = false ->
    wrel k WGet (log (LWriter i k WrDisconnected) n) (WDone WrDisconnected)
| W_write p b ok : u_blk (n_sock n k) = None -> buf_write (u_buf (n_sock n k)) p = (b, ok) ->
    wrel k WOpen (log (LWrite i k p ok) (set_buf k b n)) WOpen
| W_empty : u_blk (n_sock n k) = None -> b_len (u_buf (n_sock n k)) = 0 ->
    wrel k WOpen (log (LWriter i k WrEmpty) (set_blk k (Some i) n)) (WDone WrEmpty)
| W_close : u_blk (n_sock n k) = None -> b_len (u_buf (n_sock n k)) <> 0 ->
    wrel k WOpen (set_blk k (Some i) n) WFlush
| W_flush : n_on n (fst k) = true -> wrel k WFlush n WSend
| W_off : n_on n (fst k) = false -> wrel k WFlush (set_wlk k None n) (WReset WrClosed)
| W_crash : u_klk (n_sock n (remote k)) = None ->
    h_closed (n_chan n (remote k) (u_gen (n_sock n (remote k)))) = true -> wrel k WSend (crash n) WSend
| W_full x : u_klk (n_sock n (remote k)) = None ->
    h_closed (n_chan n (remote k) (u_gen (n_sock n (remote k)))) = false ->
    h_data (n_chan n (remote k) (u_gen (n_sock n (remote k)))) = Some x ->
    wrel k WSend (set_klk (remote k) (Some i) n) WBlock
| W_send b : u_klk (n_sock n (remote k)) = None ->
    h_closed (n_chan n (remote k) (u_gen (n_sock n (remote k)))) = false ->
    h_data (n_chan n (remote k) (u_gen (n_sock n (remote k)))) = None -> b = u_buf (n_sock n k) ->
    wrel k WSend (log (LSend i k (u_gen (n_sock n (remote k))) (slice b (b_len b)))
                      (set_chan (remote k) (u_gen (n_sock n (remote k))) (MkChan (Some (b_len b)) false) n)) WSent
| W_unblock b : h_data (n_chan n (remote k) (u_gen (n_sock n (remote k)))) = None -> b = u_buf (n_sock n k) ->
    wrel k WBlock (log (LSend i k (u_gen (n_sock n (remote k))) (slice b (b_len b)))
                      (set_chan (remote k) (u_gen (n_sock n (remote k))) (MkChan (Some (b_len b)) false)
                                (set_klk (remote k) None n))) WSent
| W_park : wrel k WSent n WParked
| W_reset r : wrel k (WReset r) (log (LWriter i k r)
                (set_blk k None (set_buf k (MkBuffer (b_data (u_buf (n_sock n k))) 0) n))) (WDone r).
Inductive crel (k : sock) : clstate -> net -> clstate -> option (nat * wrres) -> Prop :=
| C_on : n_on n (fst k) = true -> crel k ClStart (set_on (fst k) false n) ClRemote None
| C_off : n_on n (fst k) = false -> crel k ClStart n ClDone None
| C_remote h : u_klk (n_sock n (remote k)) = None ->
    h = n_chan n (remote k) (u_gen (n_sock n (remote k))) -> h_closed h = false ->
    crel k ClRemote (set_chan (remote k) (u_gen (n_sock n (remote k))) (MkChan (h_data h) true) n) ClSel1 None
| C_remote_crash : u_klk (n_sock n (remote k)) = None ->
    h_closed (n_chan n (remote k) (u_gen (n_sock n (remote k)))) = true -> crel k ClRemote (crash n) ClSel1 None
| C_wake1 j : nth_error ts j = Some (TWrite k WParked) -> crel k ClSel1 n ClSel2 (Some (j, WrSockClosed))
| C_skip1 : (forall j, nth_error ts j <> Some (TWrite k WParked)) -> crel k ClSel1 n ClSel2 None
| C_wake2 j : nth_error ts j = Some (TWrite (remote k) WParked) -> crel k ClSel2 n ClLocal (Some (j, WrSockClosed))
| C_skip2 : (forall j, nth_error ts j <> Some (TWrite (remote k) WParked)) -> crel k ClSel2 n ClLocal None
| C_local h : u_klk (n_sock n k) = None -> h = n_chan n k (u_gen (n_sock n k)) -> h_closed h = false ->
    crel k ClLocal (set_chan k (u_gen (n_sock n k)) (MkChan (h_data h) true) n) ClDisc None
| C_local_crash : u_klk (n_sock n k) = None -> h_closed (n_chan n k (u_gen (n_sock n k))) = true ->
    crel k ClLocal (crash n) ClDisc None
| C_disc : crel k ClDisc (set_conns (filter (fun p => negb (fst k =? p)) (n_conns n)) n) ClDone None.
Inductive rrel (k : sock) (m : message) (d : bool) : rdstate -> net -> rdstate -> option (nat * wrres) -> Prop :=
| R_start : u_rlk (n_sock n k) = None -> n_on n (fst k) = true -> rrel k m d RdStart (set_rlk k (Some i) n) RdGet None
| R_off : u_rlk (n_sock n k) = None -> n_on n (fst k) = false ->
    rrel k m d RdStart (log (LReader i k RdClosed) n) (RdDone RdClosed) None
| R_get : u_klk (n_sock n k) = None -> rrel k m d RdGet n (RdWait (u_gen (n_sock n k))) None
| R_recv g l : h_data (n_chan n k g) = Some l ->
    rrel k m d (RdWait g) (set_chan k g (MkChan None (h_closed (n_chan n k g))) n) (RdParse g l) None
| R_closed g : h_data (n_chan n k g) = None -> h_closed (n_chan n k g) = true ->
    rrel k m d (RdWait g) n (RdFail RdClosed ClStart) None
| R_timeout g : d = true -> rrel k m d (RdWait g) n (RdFail RdTimeout ClStart) None
| R_parse g l b r : b = slice (u_buf (n_sock n (remote k))) l ->
    (exists m' ok e, ReadBytes m b = Some (m', ok, e) /\
       r = match e with Some _ => RdBad | None => if ok then RdOk m' else RdBad end) ->
    rrel k m d (RdParse g l) (log (LRead i k g b) n) (RdAck r) None
| R_crash g l b : b = slice (u_buf (n_sock n (remote k))) l -> ReadBytes m b = None ->
    rrel k m d (RdParse g l) (crash n) (RdParse g l) None
| R_ack r j : nth_error ts j = Some (TWrite (remote k) WParked) ->
    rrel k m d (RdAck r) (log (LReader i k r) (set_rlk k None n)) (RdDone r) (Some (j, WrRead)).
Inductive drel (p : nat) : dlstate -> net -> dlstate -> Prop :=
| D_accept : drel p DlHook n DlCAS
| D_refuse : drel p DlHook (log (LDialed i p DlRefused) n) (DlDone DlRefused)
| D_already : n_on n p = true -> drel p DlCAS (log (LDialed i p DlAlready) n) (DlDone DlAlready)
| D_cas : n_on n p = false -> drel p DlCAS (set_on p true n) DlReset1
| D_reset1 : u_klk (n_sock n (p, Clt)) = None ->
    drel p DlReset1 (set_gen (p, Clt) (S (u_gen (n_sock n (p, Clt)))) n) DlReset2
| D_reset2 : u_klk (n_sock n (p, Srv)) = None ->
    drel p DlReset2 (set_gen (p, Srv) (S (u_gen (n_sock n (p, Srv)))) n) DlShut
| D_shut : drel p DlShut (log (LDialed i p DlShutting) n) (DlDone DlShutting)
| D_noshut : drel p DlShut n DlActive
| D_active : n_active n = true -> drel p DlActive n DlAdd
| D_closed : n_active n = false -> drel p DlActive (log (LDialed i p DlClosed) n) (DlDone DlClosed)
| D_add l : l = (if existsb (Nat.eqb p) (n_conns n) then n_conns n else p :: n_conns n) ->
    drel p DlAdd (log (LDialed i p DlNil) (log (LNew p) (set_conns l n))) (DlDone DlNil).
Inductive srel : shstate -> net -> shstate -> Prop :=
| S_cas : n_active n = true -> srel ShCAS (set_active false n) ShList
| S_again : n_active n = false -> srel ShCAS (log (LDown i) n) ShDone
| S_list l : same_elements l (n_conns n) = true -> srel ShList n (ShLoop l)
| S_end : srel (ShLoop []) (log (LDown i) n) ShDone
| S_next p todo : srel (ShLoop (p :: todo)) n (ShIn p ClStart todo).
Inductive trel : thread -> net -> thread -> option (nat * wrres) -> Prop :=
| T_write k s n' s' : wrel k s n' s' -> trel (TWrite k s) n' (TWrite k s') None
| T_read k m d s n' s' w : rrel k m d s n' s' w -> trel (TRead k m d s) n' (TRead k m d s') w
| T_close t k s n' s' w : closing t = Some (k, s) -> crel k s n' s' w ->
    trel t (end_close i t s' n') (to_close t s') w
| T_dial p s n' s' : drel p s n' s' -> trel (TDial p s) n' (TDial p s') None
| T_down s n' s' : srel s n' s' -> trel (TDown s) n' (TDown s') None.
End Rel.

Lemma free_none o : free o = true <-> o = None.
Proof. destruct o; cbn; split; congruence. Qed.
Lemma waits_spec k t : waits k t = true <-> t = TWrite k WParked.
Proof.
  split; [|intros ->; cbn; apply sock_eqb_refl].
  destruct t; cbn; try discriminate. destruct s; try discriminate.
  destruct (sock_eqb_spec k0 k) as [->|]; congruence.
Qed.
Ltac killH := match goal with
  | H : None = Some _ |- _ => discriminate H
  | H : Some _ = Some _ |- _ => injection H as; subst
  | H : context [match (if ?b then _ else _) with _ => _ end] |- _ => destruct b eqn:?
  | H : (if ?b then _ else _) = Some _ |- _ => destruct b eqn:?
  | H : match ?x with _ => _ end = Some _ |- _ => destruct x eqn:?
  end.
Lemma wstep_rel i n k s ch n' s' w : write_step i n k s ch = Some (n', s', w) -> wrel i n k s n' s' /\ w = None.
Proof.
  unfold write_step. intros H. destruct s; destruct ch; try discriminate; repeat killH;
    repeat match goal with
    | H : free _ = true |- _ => apply free_none in H
    | H : (_ <? 1) = true |- _ => apply Nat.ltb_lt in H
    | H : (_ <? 1) = false |- _ => apply Nat.ltb_ge in H
    end;
    (split; [|reflexivity]); try (econstructor; eauto; fail); try (constructor; auto; lia).
Qed.
Lemma select_rel {S} ts n k v (s : S) ch n' s' w : select_step ts n k v s ch = Some (n', s', w) ->
  n' = n /\ s' = s /\
  ((exists j, w = Some (j, v) /\ nth_error ts j = Some (TWrite k WParked)) \/
   (w = None /\ forall j, nth_error ts j <> Some (TWrite k WParked))).
Proof.
  unfold select_step. intros H. destruct ch; try discriminate; repeat killH; (split; [|split]; [reflexivity..|]).
  - right. split; [reflexivity|]. intros j E. apply nth_error_In in E.
    assert (F : existsb (waits k) ts = true) by (apply existsb_exists; exists (TWrite k WParked); split; [exact E|apply waits_spec; reflexivity]).
    congruence.
  - left. exists j. split; [reflexivity|]. match goal with H : waits _ _ = true |- _ => apply waits_spec in H; subst end. assumption.
Qed.
Lemma close_rel ts n k s ch n' s' w : close_step ts n k s ch = Some (n', s', w) -> crel ts n k s n' s' w.
Proof.
  unfold close_step, close_chan. intros H. destruct s.
  - destruct ch; try discriminate. repeat killH; constructor; assumption.
  - destruct ch; try discriminate. repeat killH; match goal with H : free _ = true |- _ => apply free_none in H end.
    destruct (h_closed _) eqn:E; [apply C_remote_crash|eapply C_remote]; eauto.
  - apply select_rel in H as (-> & -> & [(j & -> & E)|[-> E]]); constructor; assumption.
  - apply select_rel in H as (-> & -> & [(j & -> & E)|[-> E]]); constructor; assumption.
  - destruct ch; try discriminate. repeat killH; match goal with H : free _ = true |- _ => apply free_none in H end.
    destruct (h_closed _) eqn:E; [apply C_local_crash|eapply C_local]; eauto.
  - destruct ch; try discriminate. repeat killH; constructor.
  - destruct ch; discriminate.
Qed.
Lemma step_rel ts i n t ch n' t' w : tstep ts i n t ch = Some (n', t', w) -> trel ts i n t n' t' w.
Proof.
  unfold tstep. intros H. destruct t.
  - destruct (write_step i n k s ch) as [[[n1 s1] w1]|] eqn:E; [|discriminate]. repeat killH.
    apply wstep_rel in E as [E ->]. constructor. assumption.
  - destruct (read_step ts i n k m deadline s ch) as [[[n1 s1] w1]|] eqn:E; [|discriminate]. repeat killH.
    unfold read_step in E. destruct s.
    1,2,4: destruct ch; try discriminate; repeat killH;
      repeat match goal with H : free _ = true |- _ => apply free_none in H end;
      constructor; try (econstructor; eauto; fail).
    + destruct ch; try discriminate; repeat killH; constructor; try (econstructor; eauto; fail).
    + destruct ch; try discriminate. repeat killH. constructor.
      match goal with H : waits _ _ = true |- _ => apply waits_spec in H; subst end. constructor. assumption.
    + destruct (close_step ts n k cl ch) as [[[n2 s2] w2]|] eqn:E2; [|discriminate].
      pose proof (close_rel _ _ _ _ _ _ _ _ E2) as C.
      pose proof (T_close ts i n (TRead k m deadline (RdFail r cl)) _ _ _ _ _ eq_refl C) as T.
      destruct s2; repeat killH; exact T.
    + destruct ch; discriminate.
  - destruct (close_step ts n k s ch) as [[[n1 s1] w1]|] eqn:E; [|discriminate]. repeat killH.
    apply close_rel in E. exact (T_close ts i n (TClose k s) _ _ _ _ _ eq_refl E).
  - destruct (dial_step i n p s ch) as [[[n1 s1] w1]|] eqn:E; [|discriminate]. repeat killH.
    unfold dial_step, reset_chan in E. destruct s; destruct ch; try discriminate; repeat killH;
      repeat match goal with H : free _ = true |- _ => apply free_none in H end;
      constructor; econstructor; eauto.
  - destruct (down_step ts i n s ch) as [[[n1 s1] w1]|] eqn:E; [|discriminate]. repeat killH.
    unfold down_step in E. destruct s as [| |todo|p cl todo|].
    1-2: destruct ch; try discriminate; repeat killH; constructor; constructor; assumption.
    + destruct todo; destruct ch; try discriminate; repeat killH; constructor; constructor.
    + destruct (close_step ts n (p, Srv) cl ch) as [[[n2 s2] w2]|] eqn:E2; [|discriminate].
      pose proof (close_rel _ _ _ _ _ _ _ _ E2) as C.
      pose proof (T_close ts i n (TDown (ShIn p cl todo)) _ _ _ _ _ eq_refl C) as T.
      destruct s2; repeat killH; exact T.
    + destruct ch; discriminate.
Qed.

Lemma trel_wake ts i n t n' t' j v : trel ts i n t n' t' (Some (j, v)) -> nth_error ts i = Some t ->
  j <> i /\ (v = WrRead \/ v = WrSockClosed) /\ exists k, nth_error ts j = Some (TWrite k WParked).
Proof.
  intros H I. inversion H; subst.
  - match goal with H : rrel _ _ _ _ _ _ _ _ _ _ |- _ => inversion H; subst end.
    split; [congruence|]. eauto.
  - match goal with H : crel _ _ _ _ _ _ _ |- _ => inversion H; subst end;
      (split; [intros ->; match goal with J : nth_error _ _ = Some (TWrite _ _) |- _ => rewrite I in J; injection J as -> end; discriminate|eauto]).
Qed.
(* a step of the system *)
Inductive srel_ (s : sys) : ev -> sys -> Prop :=
| St_begin e t : begin e = Some t -> srel_ s e (MkSys (s_net s) (s_ts s ++ [t]))
| St_step i ch t n' t' : nth_error (s_ts s) i = Some t -> trel (s_ts s) i (s_net s) t n' t' None ->
    srel_ s (EvStep i ch) (MkSys n' (set_nth (s_ts s) i t'))
| St_wake i ch t n' t' j v k : nth_error (s_ts s) i = Some t -> trel (s_ts s) i (s_net s) t n' t' (Some (j, v)) ->
    j <> i -> v = WrRead \/ v = WrSockClosed -> nth_error (s_ts s) j = Some (TWrite k WParked) ->
    srel_ s (EvStep i ch) (MkSys (set_wlk k None n') (set_nth (set_nth (s_ts s) i t') j (TWrite k (WReset v)))).
Lemma mstep_rel s e s' : mstep s e = Some s' -> n_crashed (s_net s) = false /\ srel_ s e s'.
Proof.
  unfold mstep. destruct (n_crashed (s_net s)); [discriminate|]. intros H. split; [reflexivity|].
  destruct (begin e) as [t|] eqn:B.
  - destruct e; try discriminate B; injection H as <-; constructor; assumption.
  - destruct e as [| | | | |i ch]; try discriminate B.
    destruct (nth_error (s_ts s) i) as [t|] eqn:I; [|discriminate].
    destruct (tstep (s_ts s) i (s_net s) t ch) as [[[n' t'] w]|] eqn:E; [|discriminate].
    apply step_rel in E. destruct w as [[j v]|]; cbn in H.
    + destruct (trel_wake _ _ _ _ _ _ _ _ E I) as (D & V & k & J).
      rewrite set_nth_ne in H by auto. rewrite J in H. injection H as <-. eapply St_wake; eauto.
    + injection H as <-. eapply St_step; eauto.
Qed.

(* ----- locks ----- *)
Definition hw (k : sock) (t : thread) : bool :=
  match t with
  | TWrite k' (WOpen | WFlush | WSend | WBlock | WSent | WParked | WDone WrEmpty) => sock_eqb k' k
  | _ => false
  end.
Definition hb (k : sock) (t : thread) : bool :=
  match t with
  | TWrite k' (WFlush | WSend | WBlock | WSent | WParked | WReset _ | WDone WrEmpty) => sock_eqb k' k
  | _ => false
  end.
Definition hr (k : sock) (t : thread) : bool :=
  match t with
  | TRead k' _ _ (RdGet | RdWait _ | RdParse _ _ | RdAck _ | RdFail _ _) => sock_eqb k' k
  | _ => false
  end.
Definition hk (k : sock) (t : thread) : bool :=
  match t with TWrite k' WBlock => sock_eqb (remote k') k | _ => false end.
Definition lock (h : sock -> thread -> bool) (f : sock -> option nat) (ts : list thread) : Prop :=
  forall k x, f k = Some x <-> exists u, nth_error ts x = Some u /\ h k u = true.
Lemma lock_step h f f' ts i t t' : lock h f ts -> nth_error ts i = Some t ->
  (forall k, (h k t' = h k t /\ f' k = f k) \/
             (h k t' = true /\ f' k = Some i /\ f k = None) \/
             (h k t' = false /\ h k t = true /\ f' k = None)) ->
  lock h f' (set_nth ts i t').
Proof.
  intros L I H k x. specialize (L k). split.
  - intros F. destruct (H k) as [(A & C)|[(A & B & C)|(A & B & C)]].
    + rewrite C in F. apply L in F as (u & U & V). destruct (Nat.eq_dec i x) as [<-|D].
      * exists t'. split; [eapply set_nth_eq; eauto|congruence].
      * exists u. split; [|assumption]. rewrite set_nth_ne; assumption.
    + exists t'. rewrite B in F. injection F as <-. split; [eapply set_nth_eq; eauto|assumption].
    + congruence.
  - intros (u & U & V). apply set_nth_lookup in U as [[<- ->]|[D U]].
    + destruct (H k) as [(A & C)|[(A & B & C)|(A & B & C)]]; try congruence.
      rewrite C. apply L. exists t. split; congruence.
    + assert (F : f k = Some x) by (apply L; eauto).
      destruct (H k) as [(A & C)|[(A & B & C)|(A & B & C)]]; try congruence.
      assert (f k = Some i) by (apply L; eauto). congruence.
Qed.
Lemma lock_begin h f ts t : lock h f ts -> (forall k, h k t = false) -> lock h f (ts ++ [t]).
Proof.
  intros L H k x. rewrite (L k x). split; intros (u & U & V); exists u; (split; [|assumption]).
  - rewrite nth_error_app1; [assumption|]. apply nth_error_Some. congruence.
  - rewrite nth_error_snoc in U. destruct (x <? length ts); [assumption|].
    destruct (x =? length ts); [|discriminate]. injection U as <-. rewrite H in V. discriminate.
Qed.
Definition wl (n : net) k := u_wlk (n_sock n k).
Definition bl (n : net) k := u_blk (n_sock n k).
Definition rl (n : net) k := u_rlk (n_sock n k).
Definition kl (n : net) k := u_klk (n_sock n k).
Definition reset_ok (ts : list thread) : Prop := forall i k r, nth_error ts i = Some (TWrite k (WReset r)) ->
  r = WrClosed \/ r = WrRead \/ r = WrSockClosed.
Record locks (n : net) (ts : list thread) : Prop := {
  L_w : lock hw (wl n) ts; L_b : lock hb (bl n) ts; L_r : lock hr (rl n) ts; L_k : lock hk (kl n) ts;
  L_x : reset_ok ts }.
Ltac caseq := repeat match goal with
  | H : ?k = remote ?k |- _ => case (remote_self k H)
  | H : remote ?k = ?k |- _ => case (remote_self k (eq_sym H))
  | |- context [sock_eqb ?a ?b] => destruct (sock_eqb_spec a b); subst
  | H : context [sock_eqb ?a ?b] |- _ => destruct (sock_eqb_spec a b); subst
  | |- context [if ?a =? ?b then _ else _] => destruct (Nat.eqb_spec a b); subst
  | H : context [if ?a =? ?b then _ else _] |- _ => destruct (Nat.eqb_spec a b); subst
  end.
Ltac netu := unfold set_buf, set_blk, set_wlk, set_rlk, set_klk, set_gen, set_sock, set_on, set_chan, set_conns, set_active, crash, log, upds in *.
Ltac netc := cbn [n_sock n_on n_chan n_conns n_active n_crashed n_log u_buf u_blk u_wlk u_rlk u_klk u_gen] in *.
Ltac lockcase := intros ?k0; cbv [wl bl rl kl hw hb hr hk]; netu; netc; caseq; netc; rewrite ?sock_eqb_refl, ?remote_ne, ?remote_ne'; try congruence; auto 8.
Lemma to_close_h h : (h = hw \/ h = hb \/ h = hk) -> forall t k s s' k0, closing t = Some (k, s) ->
  h k0 t = false /\ h k0 (to_close t s') = false.
Proof.
  intros H t k s s' k0 C. destruct t as [| ? ? ? []| | |[]]; try discriminate C; destruct s';
    destruct H as [->|[->| ->]]; cbn; auto.
Qed.
Lemma locks_step ts i n t n' t' w : locks n ts -> nth_error ts i = Some t -> trel ts i n t n' t' w ->
  locks n' (set_nth ts i t').
Proof.
  intros [Lw Lb Lr Lk Lx] I T.
  assert (reset_ok (set_nth ts i t')) as Lx'.
  { intros x k r X. apply set_nth_lookup in X as [[<- <-]|[_ X]]; [|eauto].
    inversion T as [k1 s n1 s1 H|k1 m d s n1 s1 w1 H|t1 k1 s n1 s1 w1 H H0|p s n1 s1 H|s n1 s1 H]; subst.
    - inversion H; subst; auto.
    - destruct t as [| ? ? ? []| | |[]]; try discriminate H; destruct s1; discriminate. }
  inversion T as [k s n1 s1 H|k m d s n1 s1 w1 H|t1 k s n1 s1 w1 H H0|p s n1 s1 H|s n1 s1 H]; subst; clear T.
  - destruct H; constructor; try assumption; (eapply lock_step; [eassumption|eassumption|]); try (lockcase; fail).
    all: destruct (Lx _ _ _ I) as [->|[->| ->]]; lockcase.
  - destruct H; constructor; try assumption; (eapply lock_step; [eassumption|eassumption|]); try (lockcase; fail).
  - constructor; try assumption; (eapply lock_step; [eassumption|eassumption|]); intros k0.
    1,2,4: left; split; [transitivity false; [|symmetry]; eapply to_close_h; eauto|];
      unfold wl, bl, kl; destruct H0; destruct t as [| ? ? ? []| | |[]]; try discriminate H; cbn; autorewrite with net; reflexivity.
    assert (Q : rl n1 k0 = rl n k0) by (unfold rl; destruct H0; cbn; autorewrite with net; reflexivity).
    destruct t as [| ? ? ? []| | |[]]; try discriminate H; inversion H; subst; destruct s1; cbn -[rl];
      unfold rl in *; cbn; autorewrite with net; rewrite ?Q; caseq; auto; try congruence.
  - destruct H; constructor; try assumption; (eapply lock_step; [eassumption|eassumption|]); lockcase.
  - destruct H; constructor; try assumption; (eapply lock_step; [eassumption|eassumption|]); lockcase.
Qed.
Lemma locks_sys s e s' : locks (s_net s) (s_ts s) -> srel_ s e s' -> locks (s_net s') (s_ts s').
Proof.
  intros L H. destruct H as [e t B|i ch t n' t' I T|i ch t n' t' j v k I T D V J]; cbn.
  - destruct L as [Lw Lb Lr Lk Lx]. constructor; try (apply lock_begin; [assumption|]; intros k; destruct e; try discriminate B; injection B as <-; reflexivity).
    intros x k r X. rewrite nth_error_snoc in X. destruct (x <? _); [eauto|]. destruct (x =? _); [|discriminate].
    injection X as ->. destruct e; discriminate B.
  - eapply locks_step; eauto.
  - pose proof (locks_step _ _ _ _ _ _ _ L I T) as [Lw Lb Lr Lk Lx].
    assert (J' : nth_error (set_nth (s_ts s) i t') j = Some (TWrite k WParked)) by (rewrite set_nth_ne by auto; exact J).
    constructor; try (eapply lock_step; [eassumption|eassumption|]); try (lockcase; fail).
    intros x k' r X. apply set_nth_lookup in X as [[<- X]|[_ X]]; [injection X as -> ->; tauto|eauto].
Qed.
Lemma locks_new size : locks (new_net size) [].
Proof.
  constructor; try (intros k x; split; [discriminate|intros (u & U & _); destruct x; discriminate]).
  intros i k r X. destruct i; discriminate.
Qed.
