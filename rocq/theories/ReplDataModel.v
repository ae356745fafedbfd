(** * Model of the delivery of data to a request on a follower.
    Source: src/lib/replication/repl_dev/common.cpp, raft_repl_dev.cpp.
    One repl_req_ctx, shared by the thread that allocates its blocks, any number of deliveries
    (pushed or fetched data) and any number of error handlers (timeout of the raft channel,
    failed fetch).  Each atomic operation is one step; a schedule is a list of thread numbers.
    Blocks are one cell; removal from the request map, rpc replies and metrics are left out. *)
From Coq Require Import NArith List Bool.
Import ListNotations.

(** repl_dev.h:51-60 repl_req_state_t: bit numbers. *)
Definition BLK_ALLOCATED : N := 0.
Definition DATA_RECEIVED : N := 1.
Definition DATA_WRITTEN : N := 2.
Definition ERRORED : N := 5.
Definition DATA_COMMITTED : N := 6.
Definition has (v b : N) : bool := N.testbit v b.
Definition with_bit (v b : N) : N := N.lor v (2 ^ b).

(** Where a thread stands.  The allocating thread (common.cpp:133-170, under m_state_mtx):
    [A0] not started; [A1]..[A6] after its steps when the listener says the data is already
    committed; [ADone]. *)
Inductive apc := A0 | A1 | A2 | A3 | A4 | A5 | ADone.
(** A delivery (common.cpp:182-214, raft_repl_dev.cpp:1178-1215, :1622-1653): [D0] before
    applier_create_req; [D1] before the load of add_state_if_not_already (common.cpp:218-229);
    [D2 v] before the compare-and-exchange with [v]; [D3] accepted; [D4] promise of receipt
    kept; [D5] data on the device; [D6] state set; [DAcc], [DRej]: finished.
    An error handler (raft_repl_dev.cpp:1777-1810): [E0] before the load, [E1 v] before the
    exchange, [E2] before freeing the blocks, [EDone]. *)
Inductive pc := D0 | D1 | D2 (v : N) | D3 | D4 | D5 | D6 | DAcc | DRej | E0 | E1 (v : N) | E2 | EDone.

(** [bits]: m_state; [recv], [wrote]: how often the two promises were fulfilled; [dev]: the
    deliveries whose data was written to the blocks, latest first; [freed]: the blocks were
    given back; [late]: data was written to them after that. *)
Record st := St { bits : N; recv : nat; wrote : nat; dev : list nat; freed : bool; late : bool; al : apc; ths : list pc }.
Definition start (l : list pc) : st := St 0 0 0 [] false false A0 l.

Definition upd {A} (i : nat) (x : A) (l : list A) : list A := firstn i l ++ x :: skipn (S i) l.

(** [None]: folly throws PromiseAlreadySatisfied and nothing catches it. *)
Definition set_recv (s : st) : option st :=
  match recv s with O => Some (St (bits s) 1 (wrote s) (dev s) (freed s) (late s) (al s) (ths s)) | _ => None end.
Definition set_wrote (s : st) : option st :=
  match wrote s with O => Some (St (bits s) (recv s) 1 (dev s) (freed s) (late s) (al s) (ths s)) | _ => None end.
Definition set_bits (v : N) (s : st) : st := St v (recv s) (wrote s) (dev s) (freed s) (late s) (al s) (ths s).
Definition set_al (a : apc) (s : st) : st := St (bits s) (recv s) (wrote s) (dev s) (freed s) (late s) a (ths s).
Definition set_th (i : nat) (p : pc) (s : st) : st :=
  St (bits s) (recv s) (wrote s) (dev s) (freed s) (late s) (al s) (upd i p (ths s)).
Definition add_bit (b : N) (s : st) : st := set_bits (with_bit (bits s) b) s.

(** common.cpp:139-169 alloc_local_blks; [committed]: the hints carry a committed id. *)
Definition step_al (committed : bool) (s : st) : option st :=
  match al s with
  | A0 => Some (set_al (if committed then A1 else ADone) (add_bit BLK_ALLOCATED s))
  | A1 => Some (set_al A2 (add_bit DATA_RECEIVED s))
  | A2 => Some (set_al A3 (add_bit DATA_WRITTEN s))
  | A3 => Some (set_al A4 (add_bit DATA_COMMITTED s))
  | A4 => option_map (set_al A5) (set_recv s)
  | A5 => option_map (set_al ADone) (set_wrote s)
  | ADone => Some s
  end.

(** [strict]: a delivery goes on only after the allocating thread has left the mutex; the code
    looks at the state bit (raft_repl_dev.cpp:1255). [weak]: the weak exchange fails for no
    reason. *)
Definition step_th (strict : bool) (s : st) (i : nat) (weak : bool) : option st :=
  match nth_error (ths s) i with
  | None => Some s
  | Some p =>
    match p with
    | D0 => if (if strict then match al s with ADone => true | _ => false end else has (bits s) BLK_ALLOCATED)
            then Some (set_th i D1 s) else Some s
    | D1 => Some (set_th i (if has (bits s) DATA_RECEIVED then DRej else D2 (bits s)) s)
    | D2 v => if negb weak && (bits s =? v)%N then Some (set_th i D3 (add_bit DATA_RECEIVED s))
              else Some (set_th i (if has (bits s) DATA_RECEIVED then DRej else D2 (bits s)) s)
    | D3 => option_map (set_th i D4) (set_recv s)
    | D4 => Some (set_th i D5 (St (bits s) (recv s) (wrote s) (i :: dev s) (freed s) (late s || freed s) (al s) (ths s)))
    | D5 => Some (set_th i D6 (add_bit DATA_WRITTEN s))
    | D6 => option_map (set_th i DAcc) (set_wrote s)
    | DAcc | DRej => Some s
    | E0 => Some (set_th i (if has (bits s) ERRORED then EDone else E1 (bits s)) s)
    | E1 v => if negb weak && (bits s =? v)%N then Some (set_th i E2 (add_bit ERRORED s))
              else Some (set_th i (if has (bits s) ERRORED then EDone else E1 (bits s)) s)
    | E2 => Some (set_th i EDone (if has (bits s) BLK_ALLOCATED
                                  then St (bits s) (recv s) (wrote s) (dev s) true (late s) (al s) (ths s) else s))
    | EDone => Some s
    end
  end.

(** Thread 0 allocates, thread [S i] is the [i]-th of [ths]. *)
Definition step (committed strict : bool) (s : st) (e : nat * bool) : option st :=
  match fst e with O => step_al committed s | S i => step_th strict s i (snd e) end.
Fixpoint run (committed strict : bool) (s : st) (l : list (nat * bool)) : option st :=
  match l with
  | [] => Some s
  | e :: t => match step committed strict s e with Some s' => run committed strict s' t | None => None end
  end.
