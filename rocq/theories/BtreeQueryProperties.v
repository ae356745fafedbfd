(** What is proved of the range queries: C36, C37, C72, and what is wrong. *)
From Coq Require Import ZArith NArith List Bool Lia.
From Coq Require Import ZifyBool ZifyNat ZifyN.
From Verif Require Import Base BtNodeModel BtNodeSpec BtNodeProofs BtreeModel BtreeInv BtreePut
  BtreeMerge BtreeRemove BtreeSpec BtreeProperties BtreeQueryModel BtreeQueryProofs.
Import ListNotations.

Lemma content_sorted : forall nx t, tree_ok nx t -> sorted (content t).
Proof. intros nx t [[h HW] _]. exact (proj1 (wf_content _ _ _ _ HW)). Qed.

Lemma sorted_filter : forall (g : Z * N -> bool) l, sorted l -> sorted (filter g l).
Proof.
  intros g l. induction l as [|p l IH]; intros HS; cbn; [constructor|]. apply sorted_cons in HS.
  destruct HS as [H1 H2]. destruct (g p); [|auto]. apply sorted_cons. split; [|auto].
  unfold all_gt in *. rewrite Forall_forall in *. intros q Hq. apply filter_In in Hq. apply H1. tauto.
Qed.

(** ** C36: range queries *)

(** After any operations, a query of either kind with any page size gives, page
    by page, the entries of the map in the range: each once, in ascending order.
    K{} is not above the start of the range, and node ids are 64-bit. *)
Theorem c36_query : forall c fuel ops nx t xs r b, cfg_ok c ->
  run c fuel new_tree ops = Ok ((nx, t), xs) -> (nx <= 2 ^ 64 - 1)%N ->
  (c_k0 c <= r_start r <= r_end r)%Z -> (0 < b)%nat ->
  exists l F, sorted l /\
    (forall k v, In (k, v) l <-> in_range r k = true /\ send (fun _ => None) ops k = Some v) /\
    forall kd n, (F <= n)%nat ->
      exists pgs, pages c n kd t r r b None = Ok pgs /\ concat pgs = l /\
        Forall (fun pg => (length pg <= b)%nat) pgs.
Proof.
  intros c fuel ops nx t xs r b Hok HR HX HK HB.
  destruct (run_ok _ _ _ new_tree _ _ (fun _ => None) Hok new_tree_ok (fun _ => eq_refl) HR)
    as [HT [_ HM]]. cbn [fst snd] in *.
  pose proof (content_sorted _ _ HT) as HS.
  exists (filter (inr r) (content t)), (S (length (filter (inr r) (content t)))).
  split; [now apply sorted_filter|]. split.
  - intros k v. rewrite filter_In. unfold inr. cbn [fst]. rewrite <- HM.
    rewrite assoc_In by assumption. tauto.
  - intros kd n Hn. exact (pages_ok c kd nx t r b n r HT HX eq_refl ltac:(lia) ltac:(lia) HB ltac:(lia)).
Qed.
Print Assumptions c36_query.

(** ** C37: with a filter *)

(** A page that is larger than the number of entries in the range (the default
    is 2^32-1) has exactly the accepted ones. *)
Theorem c37_query_filter_partial : forall c fuel ops nx t xs r b f, cfg_ok c ->
  run c fuel new_tree ops = Ok ((nx, t), xs) -> (nx <= 2 ^ 64 - 1)%N ->
  (c_k0 c <= r_start r <= r_end r)%Z -> (length (content t) < b)%nat ->
  exists l, sorted l /\
    (forall k v, In (k, v) l <-> in_range r k = true /\
       send (fun _ => None) ops k = Some v /\ accepts f k v = true) /\
    forall kd n, (0 < n)%nat -> pages c n kd t r r b f = Ok [l].
Proof.
  intros c fuel ops nx t xs r b f Hok HR HX HK HB.
  destruct (run_ok _ _ _ new_tree _ _ (fun _ => None) Hok new_tree_ok (fun _ => eq_refl) HR)
    as [HT [_ HM]]. cbn [fst snd] in *.
  pose proof (content_sorted _ _ HT) as HS.
  exists (filter (acc f) (filter (inr r) (content t))).
  split; [now apply sorted_filter, sorted_filter|]. split.
  - intros k v. rewrite !filter_In. unfold inr, acc. cbn [fst snd]. rewrite <- HM.
    rewrite assoc_In by assumption. tauto.
  - intros kd [|n] Hn; [lia|]. eapply pages_filter; try eassumption.
    + lia.
    + lia.
    + pose proof (filter_length_le' _ (inr r) (content t)). lia.
Qed.
Print Assumptions c37_query_filter_partial.

(** A case: twelve keys, four pages. *)
Definition ops12 : list op :=
  map (fun i => OPut PInsert (Z.of_nat i * 3) (N.of_nat i) None) (seq 0 12) ++ [ORemove 9].

Example c36_example : exists nx t xs,
  run cfg40 200 new_tree ops12 = Ok ((nx, t), xs) /\ (nx <= 2 ^ 64 - 1)%N /\
  (length (content t) < 12)%nat /\
  (let r := KRange 3 false 30 true MAny in
   (c_k0 cfg40 <= r_start r <= r_end r)%Z /\
   (forall kd, pages cfg40 20 kd t r r 3 None =
      Ok (map (map (fun i => (3 * i, Z.to_N i)%Z)) [[2; 4; 5]; [6; 7; 8]; [9; 10]]%Z))).
Proof.
  do 3 eexists. split; [vm_compute; reflexivity|]. split; [vm_compute; discriminate|].
  split; [vm_compute; lia|]. split; [cbn; lia|]. intros []; vm_compute; reflexivity.
Qed.

(** With a page size and a filter accepted entries are left out, and the query
    says that it is done. *)
Theorem c37_query_page_refuted : exists nx t xs (f : Z -> N -> bool),
  run cfg40 200 new_tree ops12 = Ok ((nx, t), xs) /\
  (let r := KRange 0 true 33 true MAny in
   in_range r 30 = true /\ f 30%Z 10%N = true /\ get t 30 = Ok (Some 10%N) /\
   forall kd, exists pgs, pages cfg40 20 kd t r r 2 (Some f) = Ok pgs /\
     ~ In (30%Z, 10%N) (concat pgs)).
Proof.
  do 3 eexists. exists (fun _ v => (v =? 1)%N || (v =? 10)%N).
  split; [vm_compute; reflexivity|]. split; [reflexivity|]. split; [reflexivity|].
  split; [vm_compute; reflexivity|].
  intros []; (eexists; split; [vm_compute; reflexivity|vm_compute; intuition discriminate]).
Qed.
Print Assumptions c37_query_page_refuted.

(** ** C72: keys below the default key *)

(** The same without the condition on K{} does not hold: with K{} = 0, keys
    below it and an empty leaf on the way, the sweep stops at that leaf and says
    that it is done; the traversal finds all. *)
Definition ops_neg : list op :=
  map (fun i => OPut PInsert (Z.of_nat i * 3 - 100) (N.of_nat i) None) (seq 0 20) ++
  [ORemove (-94); ORemove (-91)].

Theorem c72_default_key_refuted : exists nx t xs,
  cfg_ok cfg40 /\ run cfg40 200 new_tree ops_neg = Ok ((nx, t), xs) /\ (nx <= 2 ^ 64 - 1)%N /\
  (let r := KRange (-100) true (-1) true MAny in
   (r_start r <= r_end r)%Z /\
   pages cfg40 9 QSweep t r r 100 None = Ok [[((-100)%Z, 0%N); ((-97)%Z, 1%N)]] /\
   exists l, pages cfg40 9 QTraverse t r r 100 None = Ok [l] /\ length l = 18%nat).
Proof.
  do 3 eexists. split; [apply cfg40_meets|]. split; [vm_compute; reflexivity|].
  split; [vm_compute; discriminate|]. split; [cbn; lia|]. split; [vm_compute; reflexivity|].
  eexists. split; [vm_compute; reflexivity|]. reflexivity.
Qed.
Print Assumptions c72_default_key_refuted.

(** For the traversal the condition is not needed. *)
Theorem c72_traversal_partial : forall c fuel ops nx t xs r b, cfg_ok c ->
  run c fuel new_tree ops = Ok ((nx, t), xs) -> (nx <= 2 ^ 64 - 1)%N ->
  (r_start r <= r_end r)%Z -> (0 < b)%nat ->
  exists l F, sorted l /\
    (forall k v, In (k, v) l <-> in_range r k = true /\ send (fun _ => None) ops k = Some v) /\
    forall n, (F <= n)%nat ->
      exists pgs, pages c n QTraverse t r r b None = Ok pgs /\ concat pgs = l.
Proof.
  intros c fuel ops nx t xs r b Hok HR HX HK HB.
  destruct (run_ok _ _ _ new_tree _ _ (fun _ => None) Hok new_tree_ok (fun _ => eq_refl) HR)
    as [HT [_ HM]]. cbn [fst snd] in *.
  pose proof (content_sorted _ _ HT) as HS.
  exists (filter (inr r) (content t)), (S (length (filter (inr r) (content t)))).
  split; [now apply sorted_filter|]. split.
  - intros k v. rewrite filter_In. unfold inr. cbn [fst]. rewrite <- HM.
    rewrite assoc_In by assumption. tauto.
  - intros n Hn.
    destruct (pages_ok c QTraverse nx t r b n r HT HX eq_refl ltac:(discriminate) HK HB ltac:(lia))
      as [l [H1 [H2 _]]]. eauto.
Qed.
Print Assumptions c72_traversal_partial.
