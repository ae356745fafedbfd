(** * C31: recovery order.  C55: every registered subsystem is recovered (refuted). *)
From Coq Require Import NArith List Bool Lia.
From Verif Require Import Base TopoModel TopoSpec TopoProofs.
Import ListNotations.
Local Open Scope N_scope.

(** For every graph and every hash order: the sort ends, lists names of the graph at most
    once, each after its predecessors, reports a cycle exactly if there is one, and lists
    every name otherwise. *)
Theorem c31_topological_sort : forall g order, NoDup (map fst g) -> hash_walk g order ->
  exists out has_cycle, topological_sort g order = Some (out, has_cycle) /\
    NoDup out /\ (forall v, In v out -> name g v) /\
    (forall u v, edge g u v -> In v out -> before out u v) /\
    (has_cycle = true <-> cyclic g) /\ (has_cycle = false -> forall v, name g v -> In v out).
Proof. exact topo_ok. Qed.

(** For all registrations: recovery is refused exactly when the declared dependencies are
    circular; otherwise every subsystem named in a registration is recovered exactly
    once, after everything it depends on. *)
Theorem c31_recover_order : forall decl order walk, let s := declared decl (Regs [] []) in
  (forall t, ~ In (t, Some []) decl) ->
  hash_walk (r_graph s) order -> NoDup walk -> (forall t, In t walk <-> In t (map fst (r_subs s))) ->
  (circular decl /\ recover_order s order walk = Some None) \/
  (~ circular decl /\ exists l, recover_order s order walk = Some (Some l) /\
     NoDup l /\ (forall t, In t l <-> mentioned decl t) /\ (forall t x, depends decl t x -> before l x t)).
Proof. exact recover_ok. Qed.

(** Example: a diamond 1 -> 2,3 -> 4 with the edge 2 -> 4 declared twice, and a name
    without dependencies. *)
Definition ex_decl : list (N * option (list N)) := [(4, Some [2; 3; 2]); (2, Some [1]); (3, Some [1]); (9, None)].
Example c31_example : hash_walk (r_graph (declared ex_decl (Regs [] []))) [4; 3; 1; 2] /\
  recover_order (declared ex_decl (Regs [] [])) [4; 3; 1; 2] [9; 4; 3; 2; 1] = Some (Some [1; 2; 3; 4; 9]).
Proof.
  split; [|vm_compute; reflexivity]. split.
  - repeat constructor; cbn [In]; lia.
  - change (r_graph (declared ex_decl (Regs [] []))) with [(2, [4; 4]); (3, [4]); (1, [2; 3])].
    intros v. unfold name, edge. cbn [map fst In]. split.
    + intros [<-|[<-|[<-|[<-|[]]]]]; auto 6. right. exists 3, [4]. cbn [In]. auto.
    + intros [H|[u [es [H1 H2]]]]; [tauto|].
      destruct H1 as [H1|[H1|[H1|[]]]]; injection H1 as <- <-; cbn [In] in H2; tauto.
Qed.
(** Self loop and two-cycle are refused. *)
Example c31_cycle_example : recover_order (declared [(1, Some [1])] (Regs [] [])) [1] [1] = Some None /\
  recover_order (declared [(1, Some [2]); (2, Some [1]); (3, Some [2])] (Regs [] [])) [1; 2; 3] [1; 2; 3] = Some None.
Proof. split; vm_compute; reflexivity. Qed.

(** C55.  A subsystem registered with an empty dependency list is never recovered. *)
Theorem c55_empty_dependency_list_refuted : exists t order walk, let s := register (Regs [] []) t (Some []) in
  hash_walk (r_graph s) order /\ (forall x, In x walk <-> In x (map fst (r_subs s))) /\
  In t (map fst (r_subs s)) /\ recover_order s order walk = Some (Some []).
Proof.
  exists 1, [], [1]. cbn [register r_graph r_subs fold_left touch map fst]. ands; auto.
  - split; [constructor|]. intros v. unfold name, edge. cbn [map In]. split; [intros []|].
    intros [[]|[u [es [[] _]]]].
  - cbn [orb N.eqb Pos.eqb map fst]. tauto.
  - cbn. auto.
Qed.

(** After its only dependency is deregistered, a subsystem is never recovered. *)
Theorem c55_deregistered_dependency_refuted : exists t x order walk,
  let s := deregister (register (register (Regs [] []) x None) t (Some [x])) x in
  hash_walk (r_graph s) order /\ (forall y, In y walk <-> In y (map fst (r_subs s))) /\
  In t (map fst (r_subs s)) /\ recover_order s order walk = Some (Some []).
Proof.
  exists 2, 1, [], [2]. cbv zeta.
  change (deregister (register (register (Regs [] []) 1 None) 2 (Some [1])) 1) with (Regs [] [(2, true)]).
  cbn [r_graph r_subs map fst]. ands; auto.
  - split; [constructor|]. intros v. unfold name, edge. cbn [map In]. split; [intros []|].
    intros [[]|[u [es [[] _]]]].
  - tauto.
  - cbn. auto.
Qed.

Print Assumptions c31_topological_sort.
Print Assumptions c31_recover_order.
Print Assumptions c55_empty_dependency_list_refuted.
Print Assumptions c55_deregistered_dependency_refuted.
