(** * C100, C101 and the refuted C102, C103: the repair of interior nodes. *)
From Coq Require Import ZArith List Bool Arith Lia.
From Verif Require Import Base RepairModel RepairSpec RepairProofs RepairProofs2 RepairProofs3 RepairProofs4 RepairProofs5.
Import ListNotations.

(** ** C100: a node that ends its level. *)

(** [p], with no live node to its right, is repaired from the children its first child leads to.
    The children not deleted get an entry each, in order, the last one as edge; nodes are added when
    one is not enough, and a root above them when [p] is the root; links skip the deleted
    children; nothing else changes. *)
Theorem c100_repair : forall fuel cap d root ids pid p h i0 body e en,
  0 < cap -> n_leaf p = false -> n_del p = false -> live_right d h (n_next p) None ->
  first_child p = Some i0 -> chain d (Some i0) (body ++ [(e, en)]) None ->
  rightmost en = true -> n_del en = false ->
  (forall c, In c body -> inner p c) -> (forall c l, body = c :: l -> n_del (snd c) = false) ->
  NoDup (pid :: ids ++ map fst (body ++ [(e, en)])) -> length body < length ids -> h + length body < fuel ->
  exists o ps,
    repair_links fuel cap d root ids pid p = Ok o /\ o_ok o = true /\
    row (o_disk o) cap (n_level p) ps (map (entry p) (live body)) (Some e) None /\
    ps <> [] /\ (exists ids', pid :: ids = map fst ps ++ ids') /\
    (exists cs, Forall2 relinked (live body ++ [(e, en)]) cs /\ chain (o_disk o) (Some i0) cs None) /\
    (forall i, ~ In i (pid :: ids ++ map fst body) -> o_disk o i = d i) /\
    (if Nat.eqb root pid && Nat.ltb 1 (length ps) then
       exists rn, In (o_root o) ids /\ ~ In (o_root o) (map fst ps) /\ o_disk o (o_root o) = Some rn /\
         n_leaf rn = false /\ n_level rn = S (n_level p) /\
         n_ents rn = map (fun q => (last_key (snd q), fst q)) (removelast ps) /\
         n_edge rn = option_map fst (head (rev ps)) /\ n_next rn = None
     else o_root o = root).
Proof. intros. eapply repair_edge; eassumption. Qed.
Print Assumptions c100_repair.

(** A root above leaves: whatever a leaf of the chain holds is found again by a search from the
    root. *)
Theorem c100_search : forall fuel cap d ids pid p h i0 body e en,
  0 < cap -> n_leaf p = false -> n_del p = false -> live_right d h (n_next p) None ->
  first_child p = Some i0 -> chain d (Some i0) (body ++ [(e, en)]) None ->
  rightmost en = true -> n_del en = false ->
  (forall c, In c body -> inner p c) -> (forall c l, body = c :: l -> n_del (snd c) = false) ->
  (forall c, In c (live body) -> n_ents (snd c) <> []) ->
  asc (flat_map (fun u => n_ents (snd u)) (live body ++ [(e, en)])) ->
  NoDup (pid :: ids ++ map fst (body ++ [(e, en)])) -> length body < length ids -> h + length body < fuel ->
  exists o height, repair_links fuel cap d pid ids pid p = Ok o /\ o_ok o = true /\
    forall k, lookup height (o_disk o) (o_root o) k = value_in (live body ++ [(e, en)]) k.
Proof.
  intros fuel cap d ids pid p h i0 body e en H1 H2 H3 H4 H5 H6 H7 H8 H9 H10 HN HA H11 H12 H13.
  destruct (repair_edge fuel cap d pid ids pid p h i0 body e en H1 H2 H3 H4 H5 H6 H7 H8 H9 H10 H11 H12 H13)
    as (o & ps & R1 & R2 & R3 & R9 & (ids' & R4) & (cs & R5 & R6) & _ & R8).
  exists o, (if Nat.ltb 1 (length ps) then 2 else 1). ands; [assumption|assumption|]. intros k.
  rewrite Nat.eqb_refl in R8. cbn [andb] in R8.
  eapply (search_ok cap (o_disk o) (n_level p) ps (live body) e en cs (o_root o) k i0); try eassumption.
  - replace (map (fun u => (last_key (snd u), fst u)) (live body)) with (map (entry p) (live body)); [exact R3|].
    apply map_ext_in. intros c Hc. unfold entry. specialize (HN c Hc). destruct (n_ents (snd c)); [congruence|reflexivity].
  - destruct (1 <? length ps) eqn:El.
    + destruct R8 as (rn & A1 & A2 & A3 & A4 & A5 & A6 & A7 & A8). exists rn. auto.
    + rewrite R8. destruct ps as [|q ps]; [congruence|]. cbn in R4. congruence.
Qed.
Print Assumptions c100_search.

(** Disks from lists. *)
Definition disk_of (l : list (nat * node)) : disk :=
  fun i => match find (fun c => Nat.eqb (fst c) i) l with Some c => Some (snd c) | None => None end.
Definition leaf (l : list (Z * nat)) (nx : option nat) : node := Nd true 0 l None nx false true.
Definition int (lv : nat) (l : list (Z * nat)) (e nx : option nat) : node := Nd false lv l e nx false false.

(** The leaf 2 of the root 10 has been split into 2, 3 and 5; the root, of at most two entries, has
    not been written. *)
Definition ex_root : node := int 1 [(10%Z, 1); (20%Z, 2)] (Some 4) None.
Definition ex_kids : list (nat * node) :=
  [(1, leaf [(5%Z, 105); (10%Z, 110)] (Some 2)); (2, leaf [(12%Z, 112)] (Some 3));
   (3, leaf [(15%Z, 115); (16%Z, 116)] (Some 5)); (5, leaf [(20%Z, 120)] (Some 4))].
Definition ex_last : node := leaf [(35%Z, 135)] None.
Definition ex_disk : disk := disk_of ((10, ex_root) :: ex_kids ++ [(4, ex_last)]).
Example c100_case :
  live_right ex_disk 0 (n_next ex_root) None /\ first_child ex_root = Some 1 /\
  chain ex_disk (Some 1) (ex_kids ++ [(4, ex_last)]) None /\ rightmost ex_last = true /\
  (forall c, In c ex_kids -> inner ex_root c) /\
  asc (flat_map (fun u => n_ents (snd u)) (live ex_kids ++ [(4, ex_last)])) /\
  NoDup (10 :: [21; 22; 23; 24; 25] ++ map fst (ex_kids ++ [(4, ex_last)])) /\
  match repair_links 9 2 ex_disk 10 [21; 22; 23; 24; 25] 10 ex_root with
  | Ok o => o_ok o = true /\ o_root o = 22 /\
      option_map n_ents (o_disk o 10) = Some [(10%Z, 1); (12%Z, 2)] /\
      option_map n_ents (o_disk o 21) = Some [(16%Z, 3); (20%Z, 5)] /\
      option_map n_ents (o_disk o 22) = Some [(12%Z, 10)] /\
      map (lookup 2 (o_disk o) (o_root o)) [5; 12; 13; 15; 20; 35]%Z =
        [Some 105; Some 112; None; Some 115; Some 120; Some 135]
  | _ => False
  end.
Proof.
  ands.
  - constructor.
  - reflexivity.
  - repeat (constructor; [reflexivity|]). constructor.
  - reflexivity.
  - intros c Hc. cbn in Hc. split; [|left]; destruct Hc as [<-|[<-|[<-|[<-|[]]]]]; cbn; reflexivity || discriminate.
  - cbn. repeat constructor.
  - repeat constructor; cbn; intuition discriminate.
  - vm_compute. ands; reflexivity.
Qed.

(** ** C101: a node with a right sibling. *)

(** The children up to the first one of the sibling get an entry each.  The last entry reaches as far
    as the node did before, or as far as the last child does; above level 1 the last child is made to
    reach as far as well. *)
Theorem c101_repair : forall fuel cap d root ids pid p h i0 s sn b0 l ln f fn,
  let body := b0 ++ [(l, ln)] in
  let last := Z.max (last_key p) (last_key ln) in
  0 < cap -> n_leaf p = false -> n_del p = false -> n_edge p = None -> root <> pid ->
  live_right d h (n_next p) (Some s) -> d s = Some sn -> first_child sn = Some f -> d f = Some fn ->
  first_child p = Some i0 -> chain d (Some i0) body (Some f) ->
  (forall c, In c body -> inner p c) ->
  (forall c, In c body -> was_child p (fst c) = true \/ (last_key (snd c) <= last)%Z) ->
  n_del ln = false /\ n_ents ln <> [] ->
  (forall c r, body = c :: r -> n_del (snd c) = false) ->
  ((last_key ln <= last_key p)%Z ->
     n_del fn = false /\ (rightmost fn = true \/ was_child p f = false /\ (last_key p < last_key fn)%Z)) ->
  NoDup (pid :: ids ++ map fst body ++ [f]) -> length body < length ids -> h + length body < fuel ->
  exists o ps nxt,
    repair_links fuel cap d root ids pid p = Ok o /\ o_ok o = true /\ o_root o = root /\
    (nxt = n_next p \/ nxt = Some s) /\
    row (o_disk o) cap (n_level p) ps (map (entry p) (live b0) ++ [(last, l)]) None nxt /\
    ps <> [] /\ (exists ids', pid :: ids = map fst ps ++ ids') /\
    (exists cs, Forall2 relinked (live b0 ++ [(l, if Nat.ltb 1 (n_level p) then raised last ln else ln)]) cs /\
       chain (o_disk o) (Some i0) cs (Some f)) /\
    (forall i, ~ In i (pid :: ids ++ map fst body) -> o_disk o i = d i).
Proof. intros. eapply repair_inner; eassumption. Qed.
Print Assumptions c101_repair.

(** Node 10, followed by 11, lost its child 2 to a merge into 1, and its child 3 was split. *)
Definition ex2_p : node := int 1 [(10%Z, 1); (20%Z, 2); (30%Z, 3)] None (Some 11).
Definition ex2_sib : node := int 1 [(40%Z, 6)] (Some 7) None.
Definition ex2_kids : list (nat * node) :=
  [(1, leaf [(5%Z, 105); (15%Z, 115)] (Some 3)); (3, leaf [(22%Z, 122)] (Some 5))].
Definition ex2_last : node := leaf [(27%Z, 127)] (Some 6).
Definition ex2_first : node := leaf [(33%Z, 133)] (Some 7).
Definition ex2_disk : disk :=
  disk_of ((10, ex2_p) :: (11, ex2_sib) :: ex2_kids ++ [(5, ex2_last); (6, ex2_first); (7, leaf [] None)]).
Example c101_case :
  live_right ex2_disk 1 (n_next ex2_p) (Some 11) /\ first_child ex2_sib = Some 6 /\
  chain ex2_disk (Some 1) (ex2_kids ++ [(5, ex2_last)]) (Some 6) /\
  (forall c, In c (ex2_kids ++ [(5, ex2_last)]) -> inner ex2_p c) /\
  (forall c, In c (ex2_kids ++ [(5, ex2_last)]) ->
     was_child ex2_p (fst c) = true \/ (last_key (snd c) <= Z.max (last_key ex2_p) (last_key ex2_last))%Z) /\
  was_child ex2_p 6 = false /\ (last_key ex2_p < last_key ex2_first)%Z /\
  match repair_links 9 2 ex2_disk 20 [21; 22; 23; 24] 10 ex2_p with
  | Ok o => o_ok o = true /\
      option_map n_ents (o_disk o 10) = Some [(15%Z, 1); (22%Z, 3)] /\ option_map n_next (o_disk o 10) = Some (Some 21) /\
      option_map n_ents (o_disk o 21) = Some [(30%Z, 5)] /\ option_map n_next (o_disk o 21) = Some (Some 11)
  | _ => False
  end.
Proof.
  ands.
  - eapply LrHere; reflexivity.
  - reflexivity.
  - repeat (constructor; [reflexivity|]). constructor.
  - intros c Hc. cbn in Hc. split; [|left]; destruct Hc as [<-|[<-|[<-|[]]]]; cbn; reflexivity || discriminate.
  - intros c Hc. cbn in Hc. destruct Hc as [<-|[<-|[<-|[]]]]; vm_compute; auto; right; discriminate.
  - reflexivity.
  - reflexivity.
  - vm_compute. ands; reflexivity.
Qed.

(** ** C102: a repair for which there is no space. *)

(** False: above level 1 the failure is forgotten when the last child is read, and the node is
    written with the children seen so far. *)
Definition keeps_keys : Prop := forall fuel cap d root ids pid p h o k v,
  d pid = Some p -> repair_links fuel cap d root ids pid p = Ok o ->
  lookup h d root k = Some v -> lookup h (o_disk o) (o_root o) k = Some v.
Definition ex3_root : node := int 2 [(10%Z, 1); (20%Z, 2)] (Some 4) None.
Definition ex3_disk : disk :=
  disk_of [(10, ex3_root);
    (1, int 1 [(10%Z, 31)] None (Some 2)); (2, int 1 [(15%Z, 32)] None (Some 3));
    (3, int 1 [(20%Z, 33)] None (Some 4)); (4, int 1 [] (Some 34) None);
    (31, leaf [(10%Z, 110)] (Some 32)); (32, leaf [(15%Z, 115)] (Some 33));
    (33, leaf [(20%Z, 120)] (Some 34)); (34, leaf [(35%Z, 135)] None)].
Theorem c102_no_space_refuted : ~ keeps_keys.
Proof.
  intros H.
  destruct (repair_links 9 2 ex3_disk 10 [] 10 ex3_root) as [o| |] eqn:E; [|vm_compute in E; discriminate..].
  assert (X := H 9 2 ex3_disk 10 [] 10 ex3_root 2 o 35%Z 135 eq_refl E eq_refl).
  assert (Y : match repair_links 9 2 ex3_disk 10 [] 10 ex3_root with Ok o' => lookup 2 (o_disk o') (o_root o') 35%Z | _ => None end = None) by reflexivity.
  rewrite E in Y. rewrite X in Y. discriminate.
Qed.
Print Assumptions c102_no_space_refuted.
(** At level 1, for a node that is not the root, however little space there is: the repair fails and
    leaves every node as it was (links around deleted nodes apart), or it is complete.
    Missing: levels above, and the root, where it is false. *)
Theorem c102_no_space_partial : forall fuel cap d root ids pid p h i0 body e en,
  0 < cap -> n_leaf p = false -> n_del p = false -> live_right d h (n_next p) None ->
  first_child p = Some i0 -> chain d (Some i0) (body ++ [(e, en)]) None ->
  rightmost en = true -> n_del en = false ->
  (forall c, In c body -> inner p c) -> (forall c l, body = c :: l -> n_del (snd c) = false) ->
  NoDup (pid :: ids ++ map fst (body ++ [(e, en)])) -> h + length body < fuel ->
  root <> pid -> n_level p <= 1 ->
  exists o, repair_links fuel cap d root ids pid p = Ok o /\ o_root o = root /\
    ((o_ok o = false /\ same_nodes d (o_disk o)) \/
     (o_ok o = true /\ exists ps, ps <> [] /\ row (o_disk o) cap (n_level p) ps (map (entry p) (live body)) (Some e) None /\
        fst (hd (0, p) ps) = pid)).
Proof. intros. eapply repair_any_space; eassumption. Qed.
Print Assumptions c102_no_space_partial.
(** Both cases occur. *)
Example c102_partial_case :
  match repair_links 9 2 ex_disk 40 [] 10 ex_root, repair_links 9 2 ex_disk 40 [21] 10 ex_root with
  | Ok o, Ok o' => o_ok o = false /\ o_disk o 10 = Some ex_root /\
      o_ok o' = true /\ option_map n_ents (o_disk o' 21) = Some [(16%Z, 3); (20%Z, 5)]
  | _, _ => False
  end.
Proof. vm_compute. ands; reflexivity. Qed.
(** The repair says that it succeeded; also when only the new root could not be made. *)
Example c102_reported :
  match repair_links 9 2 ex3_disk 10 [] 10 ex3_root with
  | Ok o => o_ok o = true /\ option_map n_edge (o_disk o 10) = Some None
  | _ => False
  end /\
  match repair_links 9 2 ex_disk 10 [21] 10 ex_root with
  | Ok o => o_ok o = true /\ o_root o = 10 /\ lookup 1 ex_disk 10 35%Z = Some 135 /\ lookup 1 (o_disk o) 10 35%Z = None
  | _ => False
  end.
Proof. vm_compute. ands; reflexivity. Qed.

(** ** C103: deleted children at the end of a full node. *)

(** Node 10, of two entries, must drop its last child 2: an empty node is added after 10; the
    repair of the node above stops there and drops what follows. *)
Definition ex4_p : node := int 2 [(10%Z, 1); (20%Z, 2)] None (Some 11).
Definition ex4_top : node := int 3 [(20%Z, 10)] (Some 11) None.
Definition ex4_disk : disk :=
  disk_of [(20, ex4_top); (10, ex4_p); (11, int 2 [] (Some 3) None);
    (1, int 1 [(5%Z, 31)] None (Some 5)); (5, int 1 [(10%Z, 32)] None (Some 2));
    (2, Nd false 1 [] None (Some 3) true true); (3, int 1 [] (Some 33) None);
    (31, leaf [(5%Z, 105)] (Some 32)); (32, leaf [(10%Z, 110)] (Some 33)); (33, leaf [(35%Z, 135)] None)].
Theorem c103_trailing_deleted_refuted : exists fuel cap d top ids pid p f o1 n o2 k v,
  d pid = Some p /\ chain d (first_child p) [(1, int 1 [(5%Z, 31)] None (Some 5)); (5, int 1 [(10%Z, 32)] None (Some 2));
     (2, Nd false 1 [] None (Some 3) true true)] (Some f) /\
  repair_links fuel cap d top ids pid p = Ok o1 /\ o_ok o1 = true /\ o_disk o1 top = Some n /\
  repair_links fuel cap (o_disk o1) top (o_ids o1) top n = Ok o2 /\ o_ok o2 = true /\
  lookup 3 d top k = Some v /\ lookup 3 (o_disk o2) (o_root o2) k = None.
Proof.
  destruct (repair_links 9 2 ex4_disk 20 [21; 22; 23; 24] 10 ex4_p) as [o1| |] eqn:E; [|vm_compute in E; discriminate..].
  assert (X : match repair_links 9 2 ex4_disk 20 [21; 22; 23; 24] 10 ex4_p with
     | Ok o => o_ok o = true /\ o_disk o 20 = Some ex4_top /\
         match repair_links 9 2 (o_disk o) 20 (o_ids o) 20 ex4_top with
         | Ok o2 => o_ok o2 = true /\ lookup 3 (o_disk o2) (o_root o2) 35%Z = None
         | _ => False
         end
     | _ => False
     end) by (vm_compute; ands; reflexivity).
  rewrite E in X. destruct X as (X1 & X2 & X3).
  destruct (repair_links 9 2 (o_disk o1) 20 (o_ids o1) 20 ex4_top) as [o2| |] eqn:E2; [|contradiction..].
  exists 9, 2, ex4_disk, 20, [21; 22; 23; 24], 10, ex4_p, 3, o1, ex4_top, o2, 35%Z, 135. ands; try assumption; try reflexivity; try tauto.
  repeat (constructor; [reflexivity|]). constructor.
Qed.
Print Assumptions c103_trailing_deleted_refuted.
