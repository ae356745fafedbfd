(** * Model of sizing a new virtual device and spreading its chunks.
    Source: src/lib/device/device_manager.cpp:341-401 (create_vdev), :403-505 (compose_vparam),
    :507-553 (calculate_vdev_chunk_num_on_new_pdevs), src/lib/device/device.h:102-117 (types).

    vdev_size has 64 bits, num_chunks, blk_size and chunk_size 32.  sisl::round_up and round_down
    (not in the repository) are taken to work on 64 bits.  Left out: logging, the vdev's own records
    on the drives, creating the chunks (PdevModel). *)
From Coq Require Import NArith List Bool.
Import ListNotations.
Open Scope N_scope.

Definition u32 (n : N) : N := n mod 2 ^ 32.
Definition MAX_CHUNKS : N := 65536.
Definition MAX_CHUNK_SIZE : N := 2 ^ 32 - 1.

Inductive res (A : Type) := Done (a : A) | Abort | DivZero.
Arguments Done {A} _. Arguments Abort {A}. Arguments DivZero {A}.
Definition bind {A B} (r : res A) (f : A -> res B) : res B :=
  match r with Done a => f a | Abort => Abort | DivZero => DivZero end.

Definition div (a b : N) : res N := if b =? 0 then DivZero else Done (a / b).
Definition md (a b : N) : res N := if b =? 0 then DivZero else Done (a mod b).
Definition round_down (a b : N) : res N := bind (div a b) (fun q => Done (q * b)).
Definition round_up (a b : N) : res N := bind (div (a + b - 1) b) (fun q => Done (q * b)).

(** The parameters that matter; [p_streams]: the number of streams of all drives. *)
Record param := Param { p_static : bool; p_size : N; p_num : N; p_bs : N; p_cs : N; p_streams : N }.
Record vdev := Vdev { v_size : N; v_num : N; v_cs : N }.

(** :493-498. *)
Definition sanity (bs minc maxn : N) (v : vdev) : res vdev :=
  bind (md (v_size v) (v_cs v)) (fun r =>
  if negb (r =? 0) then Abort else
  bind (md (v_cs v) bs) (fun r' =>
  if negb (r' =? 0) then Abort
  else if v_cs v <? minc then Abort
  else if maxn <? v_num v then Abort
  else Done v)).

(** :403-498, with ALL_PDEV_STRIPED; one stream gives the options that pick one drive.  [minc] is
    hs_super_blk::min_chunk_size. *)
Definition compose (minc : N) (p : param) : res vdev :=
  bind (round_up (p_num p) (p_streams p)) (fun n0 =>
  let n0 := u32 n0 in
  bind (div (p_size p) minc) (fun q =>
  let maxn := N.min (u32 q) MAX_CHUNKS in
  if p_static p then
    if p_size p =? 0 then Abort
    else if negb (n0 =? 0) then
      let min_num := u32 ((p_size p - 1) / MAX_CHUNK_SIZE + 1) in
      let n := N.min (N.max n0 min_num) maxn in
      bind (round_down (p_size p) (u32 (n * p_bs p))) (fun sz =>
      bind (div sz n) (fun c => sanity (p_bs p) minc maxn (Vdev sz n (u32 c))))
    else if negb (p_cs p =? 0) then
      bind (round_up (N.max (p_cs p) minc) (p_bs p)) (fun c =>
      let c := u32 c in
      bind (round_down (p_size p) c) (fun sz =>
      bind (div sz c) (fun n => sanity (p_bs p) minc maxn (Vdev sz (u32 n) c))))
    else Abort
  else if p_cs p =? 0 then Abort
  else bind (round_up (N.max (p_cs p) minc) (p_bs p)) (fun c =>
       sanity (p_bs p) minc maxn (Vdev 0 n0 (u32 c))))).

(** ** Single precision.  A positive number [n/d] rounded to 24 bits, ties to even; numbers are
    pairs of numerator and denominator. *)
Definition half_even (n d : N) : N :=
  let q := n / d in
  let r := n mod d in
  if 2 * r <? d then q else if d <? 2 * r then q + 1 else if N.even q then q else q + 1.
(** [n/d] scaled by 2^(a-b) is from 2^23 on and below 2^24. *)
Definition scale (n d : N) : N * N :=
  let a := 24 + N.log2 d in
  let b := N.log2 n in
  let (a, b) := (a - N.min a b, b - N.min a b) in
  if n * 2 ^ a <? 2 ^ 24 * (d * 2 ^ b) then (a, b)
  else if 0 <? a then (a - 1, b) else (a, b + 1).
Definition rnd (x : N * N) : N * N :=
  let (n, d) := x in
  let (a, b) := scale n d in
  (half_even (n * 2 ^ a) (d * 2 ^ b) * 2 ^ b, 2 ^ a).

(** :539-542: static_cast<float>(total) / data_size, then chunk_num / multiple, cut to an integer. *)
Definition fdiv (x y : N * N) : N * N := rnd (fst x * snd y, snd x * fst y).
Definition expect (total num size : N) : N :=
  let multiple := fdiv (rnd (total, 1)) (rnd (size, 1)) in
  let q := fdiv (rnd (num, 1)) multiple in
  fst q / snd q.

(** :512-547 for a new vdev, on drives with the data sizes [pd]; :543-544 the chunks that
    fit, of which there are fewer than 2^32 for real drives. *)
Definition total (pd : list N) : N := fold_right N.add 0 pd.
Definition share (pd : list N) (num cs size : N) : N := N.min (expect (total pd) num size) (size / cs).
Definition spread (pd : list N) (num cs : N) : list N := map (share pd num cs) pd.
(** :371-386: drive after drive, until there are enough. *)
Fixpoint created (num sofar : N) (l : list N) : res (list N) :=
  match l with
  | [] => Done []
  | c :: r =>
      if num <=? sofar then Done []
      else if num <? c then Abort
      else bind (created num (sofar + c) r) (fun t => Done (c :: t))
  end.
