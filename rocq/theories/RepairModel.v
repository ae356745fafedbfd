(** * Model of the repair of an interior index node after a crash.
    Source: [/repo/src/include/homestore/index/index_table.hpp] 514-533
    (true_sibling_first_child), 535-567 (update_root), 570-986 (repair_links), 988-1009
    (find_true_sibling), and what it calls of
    [/repo/src/include/homestore/btree/detail/simple_node.hpp] and [btree_node.hpp].
    During recovery a node is always read from disk and written straight to it
    ([/repo/src/lib/index/wb_cache.cpp] 127-167), so the state is the disk.  Keys are integers, the
    default key [K{}] is 0; link versions and locks are left out.  Nodes of fixed-size entries: an
    interior node has room for [cap] of them. *)
From Coq Require Import ZArith List Bool Arith.
Import ListNotations.

(** A node: for an interior node the values are node ids.  [n_mine]: [modified_cp_id] is the CP
    being recovered. *)
Record node := Nd { n_leaf : bool; n_level : nat; n_ents : list (Z * nat);
                    n_edge : option nat; n_next : option nat; n_del : bool; n_mine : bool }.
Definition disk := nat -> option node.
Definition dput (d : disk) (i : nat) (n : node) : disk := fun j => if Nat.eqb j i then Some n else d j.

Definition set_ents (l : list (Z * nat)) (n : node) : node :=
  Nd (n_leaf n) (n_level n) l (n_edge n) (n_next n) (n_del n) (n_mine n).
Definition set_edge (e : option nat) (n : node) : node :=
  Nd (n_leaf n) (n_level n) (n_ents n) e (n_next n) (n_del n) (n_mine n).
Definition set_next (x : option nat) (n : node) : node :=
  Nd (n_leaf n) (n_level n) (n_ents n) (n_edge n) x (n_del n) (n_mine n).
Definition set_mine (n : node) : node :=
  Nd (n_leaf n) (n_level n) (n_ents n) (n_edge n) (n_next n) (n_del n) true.

(** btree_node.hpp 566-569 has_valid_edge, 298-302 get_last_key. *)
Definition has_edge (n : node) : bool := negb (n_leaf n) && match n_edge n with Some _ => true | None => false end.
Definition last_key (n : node) : Z := match rev (n_ents n) with (k, _) :: _ => k | [] => 0%Z end.
Definition is_nil {A} (l : list A) : bool := match l with [] => true | _ => false end.

(** What may end a repair other than its result: a block that is not a node is read, or a loop does
    not end within [fuel] steps. *)
Inductive res (A : Type) := Ok (a : A) | Garbage | NoFuel.
Arguments Ok {A} a.
Arguments Garbage {A}.
Arguments NoFuel {A}.
Definition bind {A B} (r : res A) (f : A -> res B) : res B :=
  match r with Ok a => f a | Garbage => Garbage | NoFuel => NoFuel end.
Notation "'let*' x ':=' r 'in' f" := (bind r (fun x => f)) (at level 200, x name, right associativity).
Definition rd (d : disk) (i : nat) : res node := match d i with Some n => Ok n | None => Garbage end.

(** 988-1009 find_true_sibling: the first node to the right that is not marked deleted. *)
Fixpoint true_sibling (fuel : nat) (d : disk) (n : node) : res (option nat) :=
  match n_next n with
  | None => Ok None
  | Some s =>
      match fuel with
      | O => NoFuel
      | S f => let* x := rd d s in if n_del x then true_sibling f d x else Ok (Some s)
      end
  end.

(** 514-533 true_sibling_first_child. *)
Definition sibling_first_child (fuel : nat) (d : disk) (p : node) : res (option nat) :=
  if negb (n_leaf p) && negb (has_edge p) then
    let* s := true_sibling fuel d p in
    match s with
    | None => Ok None
    | Some i => let* x := rd d i in
                Ok (match n_ents x with (_, c) :: _ => Some c | [] => if has_edge x then n_edge x else None end)
    end
  else Ok None.

(** 627-651: the scan along the children.  The last key seen, whether there was one, and
    [next_cur_child]. *)
Fixpoint scan (fuel : nat) (d : disk) (sfc : option nat) (c : node) (lk : Z) (found : bool)
  : res (Z * bool * option nat) :=
  let '(lk', found') := if negb (n_del c) && negb (is_nil (n_ents c)) then (last_key c, true) else (lk, found) in
  match n_next c with
  | None => Ok (lk', found', None)
  | Some x =>
      let* cx := rd d x in
      if match sfc with Some s => Nat.eqb s x | None => false end then Ok (lk', found', Some x)
      else match fuel with O => NoFuel | S f => scan f d sfc cx lk' found' end
  end.

(** What the walk uses but does not change.  [w_edge]: is_parent_edge_node; [w_sib]:
    sibling_node_id; [w_orig]: orig_child_infos; [w_last]: last_parent_key; [w_stop]:
    next_cur_child; [w_cap]: the room of an interior node. *)
Record wctx := Ctx { w_edge : bool; w_sib : option nat; w_orig : list (nat * Z);
                     w_last : Z; w_stop : option nat; w_cap : nat }.
(** [orig_child_infos]: a later entry of the same child replaces an earlier one. *)
Fixpoint orig_key (l : list (nat * Z)) (i : nat) : option Z :=
  match l with
  | [] => None
  | (j, k) :: r => match orig_key r i with Some k' => Some k' | None => if Nat.eqb j i then Some k else None end
  end.

(** The loop's variables: the disk, the ids alloc_node can still give, cur_parent, the parents
    before it (latest first). *)
Record wst := Wst { s_disk : disk; s_ids : list nat; s_cur : nat * node; s_done : list (nat * node) }.
Definition on_cur (f : node -> node) (s : wst) : wst :=
  Wst (s_disk s) (s_ids s) (fst (s_cur s), f (snd (s_cur s))) (s_done s).

(** 780-798: the first sibling of cur_parent that is not deleted. *)
Definition skip_deleted (fuel : nat) (d : disk) (p : node) : res (option nat) := true_sibling fuel d p.

(** How the loop ends: [ret] is success or not. *)
Definition insert_last (k : Z) (c : nat) (n : node) : node := set_ents (n_ents n ++ [(k, c)]) n.

(** 702-922, the loop.  [c] is the child's id, [pre] the child before it that is not deleted. *)
Fixpoint walk (fuel : nat) (x : wctx) (s : wst) (pre : option (nat * node)) (c : nat) : res (wst * bool) :=
  match fuel with
  | O => NoFuel
  | S f =>
    let* ch := rd (s_disk s) c in
    let cur := snd (s_cur s) in
    if has_edge ch || (n_leaf ch && match n_next ch with None => true | Some _ => false end) then
      if n_del ch then
        match rev (n_ents cur) with
        | (_, v) :: r => Ok (on_cur (fun n => set_edge (Some v) (set_ents (rev r) n)) s, true)
        | [] => Ok (s, true)
        end
      else if w_edge x then Ok (on_cur (fun n => set_edge (Some c) (set_next None n)) s, true)
      else Ok (on_cur (set_next (w_sib x)) s, true)
    else
      let lk := last_key ch in
      let foreign := negb (w_edge x) && match orig_key (w_orig x) c with Some _ => false | None => true end in
      if foreign && Z.ltb (w_last x) lk then Ok (s, true)
      else if foreign && is_nil (n_ents ch) then
        let* v := skip_deleted f (s_disk s) cur in Ok (on_cur (set_next v) s, true)
      else
        let split := Nat.leb (w_cap x) (length (n_ents cur)) in
        match split, s_ids s with
        | true, [] => Ok (s, false)
        | _, _ =>
          let s1 := if split then
                      match s_ids s with
                      | i :: r => Wst (s_disk s) r (i, Nd false (n_level cur) [] None (n_next cur) false false)
                                      ((fst (s_cur s), set_next (Some i) cur) :: s_done s)
                      | [] => s
                      end
                    else s in
          (* 826-843 *)
          let keep := negb (n_del ch) in
          let lost := keep && is_nil (n_ents ch) && match orig_key (w_orig x) c with Some _ => false | None => true end in
          if lost then Ok (s1, true)
          else
            let key := if is_nil (n_ents ch) then match orig_key (w_orig x) c with Some k => k | None => lk end else lk in
            let s2 := if keep then on_cur (insert_last key c) s1
                      else match pre with
                           | Some (pi, pn) => Wst (dput (s_disk s1) pi (set_mine (set_next (n_next ch) pn)))
                                                  (s_ids s1) (s_cur s1) (s_done s1)
                           | None => s1
                           end in
            let pre' := if keep then Some (c, ch)
                        else match pre with Some (pi, pn) => Some (pi, set_mine (set_next (n_next ch) pn)) | None => None end in
            match n_next ch with
            | None => Ok (s2, negb keep)
            | Some nx => if match w_stop x with Some y => Nat.eqb y nx | None => false end then Ok (s2, true)
                         else walk f x s2 pre' nx
            end
        end
  end.

(** 535-567 update_root: the entries of the new root. *)
Fixpoint root_ents (l : list (nat * node)) : list (Z * nat) * option nat :=
  match l with
  | [] => ([], None)
  | (i, n) :: r => let '(e, g) := root_ents r in
                   if has_edge n then (e, match g with Some y => Some y | None => Some i end)
                   else ((last_key n, i) :: e, g)
  end.

Definition set_last_key (k : Z) (l : list (Z * nat)) : list (Z * nat) :=
  match rev l with (_, v) :: r => rev r ++ [(k, v)] | [] => [] end.

(** 927-957: the last key of the last parent, and of its last child. *)
Definition fix_last (d : disk) (last : Z) (p : node) (ret : bool) : res (disk * node * bool) :=
  if negb (is_nil (n_ents p)) && negb (has_edge p) then
    let p1 := if Z.ltb (last_key p) last then set_ents (set_last_key last (n_ents p)) p else p in
    if Nat.ltb 1 (n_level p1) then
      match rev (n_ents p1) with
      | (k, c) :: _ =>
          let* ch := rd d c in
          (* [ret] is that of the read, whatever it was before *)
          if Z.ltb (last_key ch) k
          then Ok (dput d c (set_mine (set_ents (set_last_key last (n_ents ch)) ch)), p1, true)
          else Ok (d, p1, true)
      | [] => Ok (d, p1, ret)
      end
    else Ok (d, p1, ret)
  else Ok (d, p, ret).

Fixpoint put_all (d : disk) (l : list (nat * node)) : disk :=
  match l with [] => d | (i, n) :: r => put_all (dput d i (set_mine n)) r end.

(** What a repair leaves: disk, root of the table, ids not used, success or not. *)
Record out := Out { o_disk : disk; o_root : nat; o_ids : list nat; o_ok : bool }.

(** 570-986 repair_links of node [pid], [p] being its buffer. *)
Definition repair_links (fuel cap : nat) (d : disk) (root : nat) (ids : list nat) (pid : nat) (p : node) : res out :=
  let* sib := true_sibling fuel d p in
  let edge := match sib with None => true | Some _ => false end in
  if is_nil (n_ents p) && negb edge then Ok (Out d root ids false)
  else
    match (match n_ents p with (_, c) :: _ => Some c | [] => if has_edge p then n_edge p else None end) with
    | None => Ok (Out d root ids false)
    | Some c0 =>
      let* ch := rd d c0 in
      let lpk := last_key p in
      let* scanned :=
        (if is_nil (n_ents p) then Ok (lpk, None, p)
         else
           let* sfc := sibling_first_child fuel d p in
           let* r := scan fuel d sfc ch 0%Z false in
           let '(lk, found, nc) := r in
           if found then
             if Z.ltb lpk lk then
               match sib with
               | Some s => Ok (lk, nc, set_next (Some s) p)
               | None => Ok (lpk, nc, p)
               end
             else Ok (lpk, None, p)
           else Ok (lpk, nc, p)) in
      let '(last, stop, p1) := scanned in
      let p2 := set_edge None (set_ents [] p1) in
      let x := Ctx edge sib (map (fun e => (snd e, fst e)) (n_ents p)) last stop cap in
      let* w := walk fuel x (Wst d ids (pid, p2) []) None c0 in
      let '(s, ret) := w in
      let '(li, ln) := s_cur s in
      (* the new root is made of the parents before the last one is completed *)
      let newroot := negb (is_nil (s_done s)) && Nat.eqb root pid in
      let parents0 := rev (s_done s) ++ [(li, ln)] in
      let* rt := (if newroot then
                    match s_ids s with
                    | [] => Ok (root, [], [])
                    | i :: r => let '(e, g) := root_ents parents0 in
                                Ok (i, r, [(i, Nd false (S (n_level p)) e g None false false)])
                    end
                  else Ok (root, s_ids s, [])) in
      let '(root', ids', rootnode) := rt in
      let* fl := fix_last (s_disk s) last ln ret in
      let '(d1, ln', ret') := fl in
      if ret' then
        (* 960-965, transact_nodes: the new nodes, then the node repaired *)
        match rev (s_done s) with
        | [] => Ok (Out (put_all d1 [(li, ln')]) root' ids' true)
        | first :: others => Ok (Out (put_all d1 (others ++ [(li, ln')] ++ rootnode ++ [first])) root' ids' true)
        end
      else Ok (Out d1 root' ids' false)
    end.
