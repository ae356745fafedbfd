(** * What the meta service promises. *)
From Coq Require Import ZArith NArith List Bool Arith Permutation.
From Verif Require Import MetaModel.
Import ListNotations.
Open Scope nat_scope.

(** A record: its handle (cookie), its type and its content. *)
Notation rec := (N * nat * list Z)%type.
Definition handle (r : rec) : N := fst (fst r).

Inductive op :=
| OAdd (t : nat) (data : list Z) (bid : N) (hdrs : list N) (exts : list ext)
| OUpdate (bid : N) (data : list Z) (hdrs : list N) (exts : list ext)
| ORemove (bid : N).
Definition call (e : env) (o : op) (s : st) : option (list write * st) :=
  match o with
  | OAdd t data bid hdrs exts => add e t data bid hdrs exts s
  | OUpdate bid data hdrs exts => update e bid data hdrs exts s
  | ORemove bid => remove e bid s
  end.
(** The records after a call. *)
Definition after (o : op) (r : list rec) : list rec :=
  match o with
  | OAdd t data bid _ _ => r ++ [(bid, t, data)]
  | OUpdate bid data _ _ => map (fun x => if N.eqb (handle x) bid then (fst x, data) else x) r
  | ORemove bid => filter (fun x => negb (N.eqb (handle x) bid)) r
  end.

Record env_ok (e : env) : Prop := { eo_bs : 520 <= e_bs e; eo_ssb : (e_ssb e < e_size e)%N; eo_zip : forall d l, e_zip e d = Some l -> e_unzip e l = d }.
Definition stored (e : env) (data : list Z) : list Z := match e_zip e data with Some l => l | None => data end.
(** How many data ids the chain of headers can hold: see [C29]. *)
Definition fits (e : env) (n : nat) : Prop := n <= max_ids e \/ (n - 1) mod max_ids e <> 0.
(** What the allocator gives: blocks of the device that are free, all different; for data that
    does not fit in the block itself, ids that hold it exactly, and headers enough. *)
Record fresh (e : env) (s : st) (l : list N) : Prop := { fr_diff : NoDup l; fr_free : forall b, In b l -> s_used s b = false /\ (b < e_size e)%N }.
Record room (e : env) (data : list Z) (hdrs : list N) (exts : list ext) : Prop := {
  ro_pos : forall x, In x exts -> 0 < snd x;
  ro_all : fold_right (fun x a => snd x + a) 0 exts = nblocks (e_bs e) (length (stored e data));
  ro_hdrs : length exts <= length hdrs * max_ids e;
  ro_fits : fits e (length exts) }.
Definition big (e : env) (data : list Z) : Prop := ctx_sz e < length (stored e data).
Definition legal (e : env) (s : st) (r : list rec) (o : op) : Prop :=
  match o with
  | OAdd t data bid hdrs exts => fresh e s (bid :: hdrs ++ flat_map blocks exts) /\ (big e data -> room e data hdrs exts)
  | OUpdate bid data hdrs exts => In bid (map handle r) /\ fresh e s (hdrs ++ flat_map blocks exts) /\ (big e data -> room e data hdrs exts)
  | ORemove bid => In bid (map handle r) /\ 2 <= length r          (* not the only record *)
  end.

Fixpoint collect {A} (l : list (option A)) : option (list A) :=
  match l with
  | [] => Some []
  | Some x :: r => option_map (cons x) (collect r)
  | None :: _ => None
  end.

(** The service is up, or the machine is down and the disk is all there is.  Next to it the
    records the client knows; after a call that was cut short also those after the call. *)
Inductive world := Up (s : st) | Down (d : disk).
Inductive reach (e : env) : world -> list rec -> option (list rec) -> Prop :=
| r_format d : reach e (Up (format e d)) [] None
| r_call s r o ws s' : reach e (Up s) r None -> legal e s r o -> call e o s = Some (ws, s') -> reach e (Up s') (after o r) None
| r_cut s r o ws s' k : reach e (Up s) r None -> legal e s r o -> call e o s = Some (ws, s') ->
    reach e (Down (puts (s_disk s) (firstn k ws))) r (Some (after o r))
| r_stop s r : reach e (Up s) r None -> reach e (Down (s_disk s)) r None
| r_boot d r alt ws s' r' : reach e (Down d) r alt -> boot e d = Some (ws, s') -> collect (recover e s') = Some r' -> reach e (Up s') r' None
| r_boot_cut d r alt ws s' k : reach e (Down d) r alt -> boot e d = Some (ws, s') -> reach e (Down (puts d (firstn k ws))) r alt.
