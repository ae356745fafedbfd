(** * Model of a follower fetching data from the originator.
    Source: src/lib/replication/repl_dev/raft_repl_dev.cpp:1398-1433 (check_and_fetch_remote_data),
    :1435-1514 (fetch_data_from_remote), :1516-1595 (on_fetch_data_received), :1597-1668
    (handle_fetch_data_response), :1178-1215 (pushed data), common.cpp:182-229 and
    include/homestore/replication/repl_dev.h:444-448 (on_fetch_data).

    Data is counted in blocks (every size in this code is a number of blocks times the block size,
    and so is every offset in a response).  A drive is a map from chunk and block to the block's
    content; reading and writing scattered ids is DataSvcModel.  A write is done when it is
    issued; the order of the events is free.  Left out: the rpc layer, metrics, the unaligned copy of
    a buffer (common.cpp:203-208), a write error (a release assert). *)
From Coq Require Import Arith NArith List Bool.
From Verif Require Import ReplDataModel.
Import ListNotations.
Open Scope N_scope.

(** A MultiBlkId: chunk and pieces (first block, count). *)
Record id := Id { i_chunk : N; i_pieces : list (N * N) }.
Notation addr := (N * N)%type.
Definition nrange (b n : N) : list N := map (fun i => b + N.of_nat i) (seq 0 (N.to_nat n)).
Definition expand (x : id) : list addr :=
  flat_map (fun p => map (fun b => (i_chunk x, b)) (nrange (fst p) (snd p))) (i_pieces x).
(** MultiBlkId::blk_count, blk.cpp: 16 bits. *)
Definition blk_count (x : id) : N := fold_right (fun p n => snd p + n) 0 (i_pieces x) mod 2 ^ 16.

Notation disk := (addr -> N).
Definition wr1 (d : disk) (a : addr) (v : N) : disk :=
  fun a' => if (fst a' =? fst a) && (snd a' =? snd a) then v else d a'.
Fixpoint wr (d : disk) (l : list addr) (bs : list N) : disk :=
  match l, bs with
  | a :: l', v :: bs' => wr (wr1 d a v) l' bs'
  | _, _ => d
  end.

(** What a request is made of and does not change: repl_req_ctx m_remote_blkid (server and id),
    m_local_blkids. *)
Record req := Req { q_server : N; q_remote : id; q_local : id }.

Inductive res (A : Type) := Done (a : A) | Assert | Ub.
Arguments Done {A} _. Arguments Assert {A}. Arguments Ub {A}.

(** The follower: its drive, the m_state of each request, and the requests whose blocks were given
    back by handle_error. *)
Record st := St { s_disk : disk; s_bits : nat -> N; s_freed : list nat }.
Definition set_bits (s : st) (i : nat) (v : N) : st :=
  St (s_disk s) (fun j => if Nat.eqb j i then v else s_bits s j) (s_freed s).

Section Dev.
(** The requests, by number; the block size; consensus.data_fetch_max_size_kb * 1024. *)
Variable q : nat -> req.
Variable bs max : N.

Definition size (i : nat) : N := blk_count (q_remote (q i)) * bs.

(** :1404-1415: the state is compared as a whole. *)
Definition skipped (v : N) : bool := (v =? 2 ^ ERRORED) || (v =? 2 ^ DATA_RECEIVED).

(** :1404-1432, the loop: [cur] the batch being made, [total] its size; fetch_data_from_remote of
    an empty batch does nothing (:1436). *)
Definition emit (cur : list nat) : list (list nat) := match cur with [] => [] | _ => [cur] end.
Fixpoint batch_loop (bits : nat -> N) (orig : N) (l : list nat) (total : N) (cur : list nat)
  : res (list (list nat)) :=
  match l with
  | [] => Done (emit cur)
  | i :: l' =>
      if skipped (bits i) then batch_loop bits orig l' total cur
      else if negb (q_server (q i) =? orig) then Assert
      else if max <=? total + size i then
        match batch_loop bits orig l' (size i) [i] with
        | Done b => Done (emit cur ++ b)
        | r => r
        end
      else batch_loop bits orig l' (total + size i) (cur ++ [i])
  end.
(** check_and_fetch_remote_data; front() of an empty vector is undefined. *)
Definition fetch (bits : nat -> N) (l : list nat) : res (list (list nat)) :=
  match l with
  | [] => Ub
  | i :: _ => batch_loop bits (q_server (q i)) l 0 []
  end.

(** on_fetch_data_received with the default listener: for every entry a buffer of blk_count blocks
    is filled from the drive [d] of the originator. *)
Definition read (d : disk) (x : id) : list N := firstn (N.to_nat (blk_count x)) (map d (expand x)).
Definition answer (d : disk) (b : list nat) : list N := flat_map (fun i => read d (q_remote (q i))) b.

(** save_fetched_data, save_pushed_data and the write: the data goes to the local blocks.  [None]:
    the write reads behind the data. *)
Definition deliver (s : st) (i : nat) (data : list N) : option st :=
  if has (s_bits s i) DATA_RECEIVED then Some s
  else
    let l := expand (q_local (q i)) in
    if (length l <=? length data)%nat then
      Some (St (wr (s_disk s) l data)
               (fun j => if Nat.eqb j i then with_bit (with_bit (s_bits s i) DATA_RECEIVED) DATA_WRITTEN
                         else s_bits s j) (s_freed s))
    else None.

(** handle_fetch_data_response: the pointer moves by the size of each request, taken or not. *)
Fixpoint response (s : st) (b : list nat) (data : list N) : option st :=
  match b with
  | [] => Some s
  | i :: b' =>
      let n := N.to_nat (blk_count (q_remote (q i))) in
      match deliver s i (firstn n data) with
      | Some s' => response s' b' (skipn n data)
      | None => None
      end
  end.

(** handle_error (:1777-1825) for a request that has blocks. *)
Definition give_up (s : st) (i : nat) : st :=
  if has (s_bits s i) ERRORED then s
  else St (s_disk s) (fun j => if Nat.eqb j i then with_bit (s_bits s i) ERRORED else s_bits s j)
          (if has (s_bits s i) BLK_ALLOCATED then s_freed s ++ [i] else s_freed s).
(** :1489-1505: no response. *)
Fixpoint failed (s : st) (b : list nat) : st :=
  match b with
  | [] => s
  | i :: b' => failed (if has (s_bits s i) DATA_RECEIVED then s else give_up s i) b'
  end.

(** What happens to the follower: a batch is answered with data (the empty answer of a failed read is
    ignored, :1603-1606), or the call fails; data is pushed; a request is given up, for instance
    when the wait for its data times out. *)
Inductive ev := Answer (b : list nat) (data : list N) | Fail (b : list nat) | Push (i : nat) (data : list N) | GiveUp (i : nat).
Definition step (s : st) (e : ev) : option st :=
  match e with
  | Answer b [] => Some s
  | Answer b data => response s b data
  | Fail b => Some (failed s b)
  | Push i data => deliver s i data
  | GiveUp i => Some (give_up s i)
  end.
Fixpoint run (s : st) (l : list ev) : option st :=
  match l with
  | [] => Some s
  | e :: r => match step s e with Some s' => run s' r | None => None end
  end.
End Dev.
