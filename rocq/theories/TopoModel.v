(** * Model of the dependency order of subsystem recovery.
    Source: src/lib/common/homestore_utils.cpp 84-121 ([topological_sort]) and
    src/lib/meta/meta_blk_service.cpp 359-398 and 1118-1139.
    A name is a number.  A map keyed by names is an association list without repeated
    keys.  The order in which a hash map is walked is a parameter. *)
From Coq Require Import NArith ZArith List Bool.
Import ListNotations.
Local Open Scope N_scope.

(** [std::unordered_map< std::string, std::vector< std::string > >] *)
Definition graph := list (N * list N).

(** [DAG[vertex]] as a value: an absent key is inserted with no edges. *)
Fixpoint edges_of (g : graph) (v : N) : list N :=
  match g with [] => [] | (u, es) :: r => if u =? v then es else edges_of r v end.

Definition is_key (g : graph) (v : N) : bool := existsb (fun p => fst p =? v) g.

(** homestore_utils.cpp:89-98: [in_degree] of every name. *)
Definition degree (g : graph) (v : N) : Z :=
  Z.of_nat (length (filter (N.eqb v) (concat (map snd g)))).

(** :113-116, the edges of one vertex. *)
Fixpoint relax (deg : N -> Z) (q es : list N) : (N -> Z) * list N :=
  match es with
  | [] => (deg, q)
  | e :: r =>
    let deg' := fun v => if v =? e then (deg e - 1)%Z else deg v in
    relax deg' (if (deg' e =? 0)%Z then q ++ [e] else q) r
  end.

(** :107-118; [None] when the fuel runs out. *)
Fixpoint sort_loop (g : graph) (fuel : nat) (deg : N -> Z) (q out : list N) : option (list N) :=
  match q with
  | [] => Some out
  | v :: q' =>
    match fuel with
    | O => None
    | S f => let (deg', q2) := relax deg q' (edges_of g v) in sort_loop g f deg' q2 (out ++ [v])
    end
  end.

(** :84-121.  [order] is the walk of [in_degree] in :102.  The answer is the order and
    "has a cycle".  [DAG.size()] counts the names [DAG[vertex]] has added. *)
Definition topological_sort (g : graph) (order : list N) : option (list N * bool) :=
  match sort_loop g (length order) (degree g) (filter (fun v => (degree g v =? 0)%Z) order) [] with
  | None => None
  | Some out => Some (out, negb (Nat.eqb (length out) (length g + length (filter (fun v => negb (is_key g v)) out))))
  end.

(** ** Registration *)

(** meta_blk_service.hpp:95: the graph; [m_sub_info] reduced to (name, has_deps). *)
Record regs := Regs { r_graph : graph; r_subs : list (N * bool) }.

(** [m_dep_topo_graph[x].push_back(type)] *)
Fixpoint add_edge (g : graph) (x t : N) : graph :=
  match g with
  | [] => [(x, [t])]
  | (u, es) :: r => if u =? x then (u, es ++ [t]) :: r else (u, es) :: add_edge r x t
  end.

(** [m_sub_info[x]], setting [has_deps] when [b]. *)
Fixpoint touch (l : list (N * bool)) (x : N) (b : bool) : list (N * bool) :=
  match l with
  | [] => [(x, b)]
  | (u, h) :: r => if u =? x then (u, h || b) :: r else (u, h) :: touch r x b
  end.

(** :372-398 *)
Definition register (s : regs) (t : N) (deps : option (list N)) : regs :=
  let subs := touch (r_subs s) t false in
  match deps with
  | None => Regs (r_graph s) subs
  | Some ds => Regs (fold_left (fun g x => add_edge g x t) ds (r_graph s))
                    (fold_left (fun l x => touch l x true) ds (touch subs t true))
  end.

(** :359-370 *)
Definition deregister (s : regs) (t : N) : regs :=
  if existsb (fun p => fst p =? t) (r_subs s)
  then Regs (filter (fun p => negb (fst p =? t)) (r_graph s)) (filter (fun p => negb (fst p =? t)) (r_subs s))
  else s.

(** :1118-1139, the subsystems in the order they are recovered; inner [None] is the
    exception about circular dependencies.  [walk] is the walk of [m_sub_info]. *)
Definition recover_order (s : regs) (order walk : list N) : option (option (list N)) :=
  match topological_sort (r_graph s) order with
  | None => None
  | Some (_, true) => Some None
  | Some (out, false) =>
    Some (Some (out ++ filter (fun v => existsb (fun p => (fst p =? v) && negb (snd p)) (r_subs s)) walk))
  end.
