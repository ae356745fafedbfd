(** * Specification vocabulary for dependency orders. *)
From Coq Require Import NArith List.
From Verif Require Import TopoModel.
Import ListNotations.
Local Open Scope N_scope.

Definition edge (g : graph) (u v : N) : Prop := exists es, In (u, es) g /\ In v es.
Definition name (g : graph) (v : N) : Prop := In v (map fst g) \/ exists u, edge g u v.

(** A path of at least one edge. *)
Inductive path (g : graph) : N -> N -> Prop :=
| path_one : forall u v, edge g u v -> path g u v
| path_more : forall u v w, edge g u v -> path g v w -> path g u w.
Definition cyclic (g : graph) : Prop := exists v, path g v v.

(** A walk of a hash map visits each name of the graph once. *)
Definition hash_walk (g : graph) (order : list N) : Prop := NoDup order /\ forall v, In v order <-> name g v.

(** [a] stands before [b] in [l]. *)
Definition before (l : list N) (a b : N) : Prop := exists l1 l2, l = l1 ++ b :: l2 /\ In a l1.

(** What the registrations declared: (subsystem, its dependencies). *)
Definition declared (decl : list (N * option (list N))) (s : regs) : regs :=
  fold_left (fun s d => register s (fst d) (snd d)) decl s.
Definition depends (decl : list (N * option (list N))) (t x : N) : Prop := exists ds, In (t, Some ds) decl /\ In x ds.
Definition mentioned (decl : list (N * option (list N))) (t : N) : Prop :=
  (exists d, In (t, d) decl) \/ exists u, depends decl u t.
(** [t] needs [x], directly or through others. *)
Inductive needs (decl : list (N * option (list N))) : N -> N -> Prop :=
| needs_one : forall t x, depends decl t x -> needs decl t x
| needs_more : forall t x y, needs decl t x -> depends decl x y -> needs decl t y.
Definition circular (decl : list (N * option (list N))) : Prop := exists t, needs decl t t.
