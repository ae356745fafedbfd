(** * What log groups must give back, said without the model's encoding. *)
From Coq Require Import NArith ZArith List Bool Arith.
From Verif Require Import Base ByteBase LogGroupModel.
Import ListNotations.

(** What the user of a log gave: store, sequence number and data. *)
Definition entry (r : record) : N * Z * list N := (r_store r, r_seq r, r_data r).

(** Inputs of a group: fields fit their width, buffers have their length, and the sizes stay
    under 2 GB. *)
Record config_ok (cf : config) : Prop := {
  co_mult : 48 <= c_mult cf;
  co_init : (c_init cf < 2 ^ 32)%N;
  co_crc : forall c b, (c_crc cf c b < 2 ^ 32)%N }.
Definition record_ok (r : record) : Prop := (r_store r < 2 ^ 32)%N /\ (- 2 ^ 63 <= r_seq r < 2 ^ 63)%Z.
Definition data_size (rs : list record) : nat := list_sum (map (fun r => length (r_data r)) rs).
Record group_ok (cf : config) (buf0 fbuf : list N) (max_records : nat) (rs : list record) (idx : Z) (logdev prev_crc : N) : Prop := {
  go_buf : length buf0 = buf_len cf;
  go_fbuf : length fbuf = round_up ftr_size (c_mult cf);
  go_max : 0 < max_records;
  go_some : rs <> [];
  go_recs : Forall record_ok rs;
  go_idx : (- 2 ^ 63 <= idx < 2 ^ 63)%Z;
  go_logdev : (logdev < 2 ^ 32)%N;
  go_crc : (prev_crc < 2 ^ 32)%N;
  go_size : (N.of_nat (96 + 20 * max_records + data_size rs + 2 * c_mult cf) < 2 ^ 31)%N }.
(** How many records a group takes. *)
Definition taken (max_records : nat) (rs : list record) : nat := Nat.min (length rs) (Nat.min max_records max_records_in_a_batch).

(** ** A log: groups one after the other, each naming the CRC of the one before. *)
Record wgroup := WG { w_bytes : list N; w_recs : list record; w_idx : Z }.
Inductive chain (cf : config) (logdev : N) : N -> Z -> list wgroup -> N -> Z -> Prop :=
| chain_nil : forall c idx, chain cf logdev c idx [] c idx
| chain_cons : forall c idx junk buf0 fbuf max_records rs bytes n gs c' idx',
    group_ok cf buf0 fbuf max_records rs idx logdev c ->
    make_group cf junk buf0 fbuf max_records rs idx logdev c = Some (bytes, n) ->
    chain cf logdev (h_crc bytes) (idx + Z.of_nat n) gs c' idx' ->
    chain cf logdev c idx (WG bytes (firstn n rs) idx :: gs) c' idx'.
(** The records of a log with their index. *)
Definition log_of (gs : list wgroup) : list (Z * (N * Z * list N)) :=
  concat (map (fun g => number (w_idx g) (map entry (w_recs g))) gs).
Definition stream_of (gs : list wgroup) : list N := concat (map w_bytes gs).

(** A group on the device that nothing speaks against: what recovery may hand out. *)
Record sealed (cf : config) (logdev : N) (idx : Z) (b : list N) : Prop := {
  se_magic : get 0 4 b = hdr_magic;
  se_logdev : get 44 4 b = logdev;
  se_size : N.to_nat (get 20 4 b) = length b;
  se_start : unz64 (get 12 8 b) = idx;
  se_crc : get 40 4 b = fold_left (c_crc cf) (skipn 48 b) (c_init cf) }.

(** Groups handed out one after the other. *)
Fixpoint sealed_from (cf : config) (ld : N) (pc : N) (idx : Z) (bs : list (list N)) : Prop :=
  match bs with
  | [] => True
  | b :: bs' => sealed cf ld idx b /\ (pc = 0%N \/ get 36 4 b = pc) /\ 0 < N.to_nat (get 8 4 b) /\
                sealed_from cf ld (get 40 4 b) (idx + Z.of_nat (N.to_nat (get 8 4 b))) bs'
  end.

(** ** A torn write: the first [p] bytes are new. *)
Definition torn (p : nat) (new old : list N) : list N := firstn p new ++ skipn p old.

(** Old bytes that do not begin a group of this log. *)
Definition stale (ld pc : N) (old : list N) : Prop :=
  get 0 4 old <> hdr_magic \/ get 44 4 old <> ld \/ (pc <> 0%N /\ get 36 4 old <> pc).

(** The footer lies within one unit of writing. *)
Definition footer_whole (cf : config) (b : list N) : Prop :=
  forall k, k * c_mult cf <= N.to_nat (get 32 4 b) \/ N.to_nat (get 32 4 b) + 24 <= k * c_mult cf.
(** The old bytes where the footer goes are not the footer of a group with that first index. *)
Definition no_old_footer (b old : list N) (idx : Z) : Prop :=
  ~ (get (N.to_nat (get 32 4 b)) 3 old = ftr_magic /\ unz64 (get (N.to_nat (get 32 4 b) + 4) 8 old) = idx).
(** The CRC the reader compares with after the groups [gs]. *)
Definition seen (gs : list wgroup) (prev c : N) : N := match gs with [] => prev | _ => c end.
