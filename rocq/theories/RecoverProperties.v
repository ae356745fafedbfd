(** * C108 and the refuted C109 to C111: what the recovery of an index does to its nodes. *)
From Coq Require Import ZArith NArith List Bool Arith Lia Permutation Sorted.
From Verif Require Import Base WbModel WbSpec WbProofs WbFlushProofs WbProperties DagModel DagSpec DagProofs DagProofs2
  DagProofs3 DagProperties LeafCrashModel LeafCrashSpec RecovModel RecovSpec RecovProperties
  RecovBlkModel RecovBlkSpec RecovBlkProofs RecovBlkProperties.
From Verif Require FixedModel FixedSpec.
From Verif Require Import RepairModel RepairSpec RecoverModel RecoverSpec RecoverProofs.
Import ListNotations.

(** ** C108: the links to deleted children are taken out of a node that is taken back.

    A search for any key then goes to the nearest kept child to the left of the one it went to (where
    merges move the keys), or to the first kept child.  All kept children stay, in order.  A node with
    a deleted child is written; if none is kept it is marked deleted and freed.  Exactly the deleted
    children, and this node then, are freed. *)
Theorem c108_stale_links : forall d pid p,
  n_leaf p = false -> asc (n_ents p) -> (forall c, In c (children p) -> d c <> None) ->
  exists p' fr, stale_links d pid p = Ok (p', fr) /\
    (forall k, route (n_ents p') (n_edge p') k =
       match split_at (n_ents p) (n_edge p) k with Some x => heir d x | None => None end) /\
    children p' = filter (fun c => negb (dead d c)) (children p) /\
    n_leaf p' = false /\ n_level p' = n_level p /\ n_next p' = n_next p /\
    (if existsb (dead d) (children p) then
       n_mine p' = true /\ n_del p' = n_del p || is_nil (children p') /\
       Permutation fr (filter (dead d) (children p) ++ if is_nil (children p') then [pid] else [])
     else p' = p /\ fr = []).
Proof. exact stale_links_ok. Qed.
Print Assumptions c108_stale_links.

(** A node with leaves 1 to 5; 1, 3 and the edge 5 are deleted. *)
Definition disk_of (l : list (nat * node)) : disk :=
  fun i => match find (fun e => Nat.eqb (fst e) i) l with Some e => Some (snd e) | None => None end.
Definition leaf (l : list (Z * nat)) (nx : option nat) : node := Nd true 0 l None nx false false.
Definition inode (lv : nat) (l : list (Z * nat)) (edge nx : option nat) : node := Nd false lv l edge nx false false.
Definition sx_disk := disk_of [(1, set_del (leaf [] (Some 2))); (2, leaf [(20%Z, 120)] (Some 3));
  (3, set_del (leaf [] (Some 4))); (4, leaf [(40%Z, 140)] (Some 5)); (5, set_del (leaf [] None))].
Definition sx_node := inode 1 [(10%Z, 1); (20%Z, 2); (30%Z, 3); (40%Z, 4)] (Some 5) None.
Example c108_case :
  n_leaf sx_node = false /\ asc (n_ents sx_node) /\ (forall c, In c (children sx_node) -> sx_disk c <> None) /\
  exists p', stale_links sx_disk 50 sx_node = Ok (p', [3; 1; 5]) /\ n_ents p' = [(30%Z, 2)] /\ n_edge p' = Some 4.
Proof.
  ands; try reflexivity.
  - cbn. repeat constructor; cbn; lia.
  - intros c H. cbn in H. repeat (destruct H as [<-|H]; [cbn; discriminate|]). destruct H.
  - eexists. ands; reflexivity.
Qed.
(** All children deleted: the node goes too. *)
Example c108_case_all : exists p', stale_links sx_disk 50 (inode 1 [(10%Z, 1); (30%Z, 3)] None (Some 51)) = Ok (p', [3; 1; 50]) /\ n_del p' = true.
Proof. eexists. split; reflexivity. Qed.

(** ** C109: recovery frees a block at most once.  False. *)

(** As far as it holds: if no interior node that is taken back has a deleted child, the blocks given
    to free_blk by the whole recovery are those of C105 and C106, each once. *)
Theorem c109_frees_partial : forall isnew lvl pos ismeta l rows w j order worder d evs s landed fuel cap q m sb ids top t,
  crashed isnew lvl pos ismeta l rows w j order worder d evs s landed ->
  RecovModel.walk ismeta d landed order = Some q ->
  recover fuel cap ismeta d landed q m sb ids order top = Good t ->
  (forall b n c, In b order -> decide d landed b = Restored -> m b = Some n -> n_level n <> 0 -> In c (children n) ->
     decide d landed c <> Deleted /\ dead m c = false) ->
  NoDup (t_frees t) /\ t_frees t = q_del q.
Proof.
  intros isnew lvl pos ismeta l rows w j order worder d evs s landed fuel cap q m sb ids top t HC HW HR HD.
  assert (E := recover_frees fuel cap ismeta d landed q m sb ids order top t HW HR HD). split; [|exact E]. rewrite E. clear E HR HD.
  destruct HC as (A1 & A2 & A3 & A4 & A5 & A6 & A7 & A8 & A9 & A10 & A11 & A12 & A13).
  destruct (c105_recovery_walk _ _ _ _ _ _ _ _ _ _ _ _ _ _ A1 A2 A3 A4 A5 A6 A7 A8 A9 A10 A11 A12 A13)
    as (q' & B1 & _ & _ & _ & B5 & _).
  assert (q' = q) by congruence. subst q'. rewrite <- (walk_frees _ _ _ _ _ HW).
  clear - B5. set (L := q_log q) in *. clearbody L. induction L as [|e L IH]; cbn; [constructor|].
  assert (IH' : NoDup (frees_of L)).
  { apply IH. intros l1 b l2 E. destruct (B5 (e :: l1) b l2) as [X Y]; [cbn; now rewrite E|]. split; [|exact Y]. intros H. apply X. now right. }
  destruct e; auto. constructor; [|exact IH']. intros H.
  assert (Hin : In (Free b) L).
  { clear - H. induction L as [|e L IH]; cbn in H; [destruct H|]. destruct e; try (right; now apply IH). destruct H as [->|H]; [now left|right; now apply IH]. }
  apply in_split in Hin. destruct Hin as (l1 & l2 & E). destruct (B5 (Free b :: l1) b l2) as [X _]; [cbn; now rewrite E|]. apply X. now left.
Qed.
Print Assumptions c109_frees_partial.

(** With C106: the allocator after the whole recovery, then. *)
Theorem c106_whole_recovery : forall isnew lvl pos ismeta l rows w j order worder d evs s landed total bm fuel cap q m sb ids top t n k,
  crashed isnew lvl pos ismeta l rows w j order worder d evs s landed -> knows_old total bm isnew ismeta j ->
  (forall b, In b (named j) -> isnew b = true -> merged l b = true -> bm (blk b) = true) ->
  (forall b u, rb_up (d_buf d b) = Some u -> ismeta u = true -> isnew b = true -> bm (blk b) = true) ->
  RecovModel.walk ismeta d landed order = Some q ->
  recover fuel cap ismeta d landed q m sb ids order top = Good t ->
  (forall b nd c, In b order -> decide d landed b = Restored -> m b = Some nd -> n_level nd <> 0 -> In c (children nd) ->
     decide d landed c <> Deleted /\ dead m c = false) ->
  let ops := map (fun b => FixedSpec.Replay (blk b)) (q_kept q) ++ repeat FixedSpec.Alloc n ++
             FixedSpec.Recovered :: repeat FixedSpec.Alloc k ++ map (fun b => FixedSpec.Free (blk b)) (t_frees t) in
  let u := FixedSpec.urun (FixedSpec.start total true bm) ops in
  (forall b, in_use total bm isnew d landed b -> FixedSpec.copies (blk b) (FixedSpec.u_owned u) = 1%nat) /\
  (forall x, FixedSpec.copies x (FixedModel.f_q (FixedSpec.u_alloc u)) + FixedSpec.copies x (FixedSpec.u_owned u) =
             if (x <? total)%N then 1 else 0)%nat.
Proof.
  intros isnew lvl pos ismeta l rows w j order worder d evs s landed total bm fuel cap q m sb ids top t n k HC H1 H2 H3 HW HR HD.
  destruct (c109_frees_partial _ _ _ _ _ _ _ _ _ _ _ _ _ _ _ _ _ _ _ _ _ _ HC HW HR HD) as [_ E]. rewrite E.
  destruct (c106_blocks_after_crash _ _ _ _ _ _ _ _ _ _ _ _ _ _ _ _ n k HC H1 H2 H3) as (q' & W & X).
  assert (q' = q) by congruence. subst q'. exact X.
Qed.
Print Assumptions c106_whole_recovery.

(** The tree at a crash: nodes on disk are those of the end of the CP, the others those of its start. *)
Definition crash_disk (landed : nat -> bool) (start_ end_ : disk) : disk := fun b => if landed b then end_ b else start_ b.
(** The value of a key, from root [r]. *)
Definition value (d : disk) (r : nat) (k : Z) : option nat :=
  match d r with Some n => lookup (n_level n) d r k | None => None end.
(** Nodes not part of the CP are the same at its start and end. *)
Definition only_cp (order : list nat) (start_ end_ : disk) : Prop := forall b, ~ In b order -> start_ b = end_ b.

Ltac crash_hyps :=
  [> vm_compute; reflexivity | vm_compute; reflexivity
  | let m := fresh in let r := fresh in let H := fresh in
    intros m r H; cbn in H |- *; repeat (destruct H as [H|H]; [try discriminate; injection H as <- <-; eauto|]); destruct H
  | discriminate | rows_case | qd_case | repeat constructor; cbn; intuition discriminate | vm_compute; reflexivity
  | let x := fresh in intros x; cbn; intuition | cons_case | ].
Lemma only_list order l1 l2 :
  filter (fun e => negb (existsb (Nat.eqb (fst e)) order)) l1 = filter (fun e => negb (existsb (Nat.eqb (fst e)) order)) l2 ->
  only_cp order (disk_of l1) (disk_of l2).
Proof.
  intros E b Hb.
  assert (X : forall l, disk_of l b = disk_of (filter (fun e : nat * node => negb (existsb (Nat.eqb (fst e)) order)) l) b).
  { unfold disk_of. induction l as [|[i n] l IH]; cbn [find filter fst snd]; [reflexivity|].
    destruct (existsb (Nat.eqb i) order) eqn:Ei; cbn [negb find fst snd].
    - destruct (Nat.eqb_spec i b) as [->|_]; [|exact IH]. exfalso. apply Hb. apply existsb_exists in Ei.
      destruct Ei as (y & Y1 & Y2). apply Nat.eqb_eq in Y2. now subst y.
    - destruct (Nat.eqb i b); [reflexivity|exact IH]. }
  now rewrite (X l1), (X l2), E.
Qed.
Ltac only_case := apply only_list; reflexivity.

(** The crash of the case of C105, with a node 53 and a leaf 5 to the right of all that. *)
Definition fc_start : disk := disk_of [(1, leaf [(10%Z, 110); (11%Z, 111)] (Some 2)); (2, leaf [(20%Z, 120); (21%Z, 121)] (Some 3));
  (3, leaf [(30%Z, 130)] (Some 4)); (4, leaf [(40%Z, 140)] (Some 5)); (5, leaf [(50%Z, 150)] None);
  (50, inode 1 [(11%Z, 1); (21%Z, 2); (30%Z, 3); (40%Z, 4)] None (Some 53)); (53, inode 1 [] (Some 5) None);
  (60, inode 2 [(40%Z, 50)] (Some 53) None)]%nat.
Definition fc_end : disk := disk_of [(1, leaf [(10%Z, 110)] (Some 11)); (11, leaf [(11%Z, 111)] (Some 2)); (2, leaf [(20%Z, 120)] (Some 12));
  (12, leaf [(21%Z, 121)] (Some 3)); (3, leaf [(30%Z, 130); (40%Z, 140)] (Some 5)); (5, leaf [(50%Z, 150)] None);
  (50, inode 1 [(10%Z, 1); (11%Z, 11)] None (Some 51)); (51, inode 1 [(20%Z, 2); (21%Z, 12); (40%Z, 3)] None (Some 53)); (53, inode 1 [] (Some 5) None);
  (60, inode 2 [(11%Z, 50); (40%Z, 51)] (Some 53) None)]%nat.
Example c109_case : exists w j s d q t,
  crashed wx_new wx_lvl wx_pos wx_meta wx_ops wx_rows w j wx_order (w_list w) d wx_evs s wx_landed /\
  only_cp wx_order fc_start fc_end /\
  RecovModel.walk wx_meta d wx_landed wx_order = Some q /\
  recover 20 4 wx_meta d wx_landed q (crash_disk wx_landed fc_start fc_end) 60 [21; 22]%nat wx_order 9 = Good t /\
  (forall b n c, In b wx_order -> decide d wx_landed b = Restored -> crash_disk wx_landed fc_start fc_end b = Some n -> n_level n <> 0 ->
     In c (children n) -> decide d wx_landed c <> Deleted /\ dead (crash_disk wx_landed fc_start fc_end) c = false) /\
  t_frees t = [4]%nat /\
  (forall k, In k [10; 11; 20; 21; 30; 40; 50]%Z -> value (t_disk t) (t_sb t) k = value fc_start 60 k).
Proof.
  destruct c105_case as (H1 & H2 & H3 & H4 & H5 & H6 & H7 & _).
  edestruct (case_of _ (fun d q => (map (decide d wx_landed) wx_order,
      match recover 20 4 wx_meta d wx_landed q (crash_disk wx_landed fc_start fc_end) 60 [21; 22]%nat wx_order 9 with
      | Good t => Some (t_frees t, map (value (t_disk t) (t_sb t)) [10; 11; 20; 21; 30; 40; 50]%Z) | _ => None end))
    wx_new wx_lvl wx_pos wx_meta wx_ops wx_rows wx_evs wx_order wx_landed) as (w & j & s & d & q & K1 & K2 & K3 & K4); auto.
  { vm_compute. reflexivity. }
  { intros x. cbn. intuition. }
  { cons_case. }
  assert (Z0 := f_equal fst K4). assert (Z := f_equal snd K4). clear K4. cbn [fst snd] in Z0, Z.
  destruct (recover 20 4 wx_meta d wx_landed q (crash_disk wx_landed fc_start fc_end) 60 [21; 22]%nat wx_order 9) as [t| |] eqn:Et; try discriminate Z.
  assert (Z1 := f_equal (fun o => match o with Some x => fst x | None => [] end) Z).
  assert (Z2 := f_equal (fun o => match o with Some x => snd x | None => [] end) Z). cbn [fst snd map] in Z1, Z2. clear Z.
  exists w, j, s, d, q, t. split; [exact K1|]. split; [only_case|]. split; [exact K3|]. split; [exact Et|]. split; [|split; [exact Z1|]].
  - intros b n c Hb Hr. exfalso. unfold wx_order in Z0. cbn [map] in Z0. injection Z0; intros. cbn in Hb.
    repeat (destruct Hb as [<-|Hb]; [congruence|]). destruct Hb.
  - injection Z2; intros. cbn in *.
    repeat match goal with H : _ \/ _ |- _ => destruct H as [<-|H] | H : False |- _ => destruct H end;
      (etransitivity; [eassumption|vm_compute; reflexivity]).
Qed.

(** Below the root 60 are 50 (leaves 1, 2), 52 (leaves 3, 4) and 53 (leaf 5).  52 is merged into 50, and
    then leaf 3 into leaf 2.  Leaf 2 gets to disk and 50 does not.  52 is taken back, its link to 3 is
    taken out and 3 is freed; 3 is freed again as its merge is on disk. *)
Definition fa_ops := [OTransact 60 50 [] [52]%nat; OTransact 50 2 [] [3]%nat].
Definition fa_rows (v : nat) : list nat := match v with 0 => [1; 2; 3; 4; 5]%nat | 1 => [50; 52; 53]%nat | 2 => [60]%nat | _ => [] end.
Definition fa_order := [2; 3; 50; 52; 60]%nat.
Definition fa_evs := [EStart 8; EIssue 2; EDone 2].
Definition fa_landed (b : nat) := existsb (Nat.eqb b) [2]%nat.
Definition fa_new (b : nat) := existsb (Nat.eqb b) [].
Definition fa_start : disk := disk_of [(1, leaf [(10%Z, 110)] (Some 2)); (2, leaf [(20%Z, 120)] (Some 3)); (3, leaf [(30%Z, 130)] (Some 4));
  (4, leaf [(40%Z, 140)] (Some 5)); (5, leaf [(50%Z, 150)] None);
  (50, inode 1 [(10%Z, 1); (20%Z, 2)] None (Some 52)); (52, inode 1 [(30%Z, 3); (40%Z, 4)] None (Some 53)); (53, inode 1 [] (Some 5) None);
  (60, inode 2 [(20%Z, 50); (40%Z, 52)] (Some 53) None)]%nat.
Definition fa_end : disk := disk_of [(1, leaf [(10%Z, 110)] (Some 2)); (2, leaf [(20%Z, 120); (30%Z, 130)] (Some 4));
  (4, leaf [(40%Z, 140)] (Some 5)); (5, leaf [(50%Z, 150)] None);
  (50, inode 1 [(10%Z, 1); (30%Z, 2); (40%Z, 4)] None (Some 53)); (53, inode 1 [] (Some 5) None);
  (60, inode 2 [(40%Z, 50)] (Some 53) None)]%nat.
Theorem c109_double_free_refuted : exists w j s d q t,
  crashed fa_new wx_lvl Z.of_nat wx_meta fa_ops fa_rows w j fa_order (w_list w) d fa_evs s fa_landed /\
  only_cp fa_order fa_start fa_end /\
  RecovModel.walk wx_meta d fa_landed fa_order = Some q /\
  recover 20 3 wx_meta d fa_landed q (crash_disk fa_landed fa_start fa_end) 60 [21; 22]%nat fa_order 9 = Good t /\
  (forall k, In k [10; 20; 30; 40; 50]%Z -> value (t_disk t) (t_root t) k = value fa_start 60 k) /\
  t_frees t = [3; 3]%nat /\ ~ NoDup (t_frees t).
Proof.
  edestruct (case_of _ (fun d q => match recover 20 3 wx_meta d fa_landed q (crash_disk fa_landed fa_start fa_end) 60 [21; 22]%nat fa_order 9 with
      | Good t => Some (t_frees t, map (value (t_disk t) (t_root t)) [10; 20; 30; 40; 50]%Z) | _ => None end)
    fa_new wx_lvl Z.of_nat wx_meta fa_ops fa_rows fa_evs fa_order fa_landed) as (w & j & s & d & q & K1 & K2 & K3 & K4).
  all: crash_hyps.
  destruct (recover 20 3 wx_meta d fa_landed q (crash_disk fa_landed fa_start fa_end) 60 [21; 22]%nat fa_order 9) as [t| |] eqn:Et; try discriminate K4.
  assert (Z1 : t_frees t = [3; 3]%nat) by congruence.
  assert (Z2 := f_equal (fun o => match o with Some x => snd x | None => [] end) K4). cbn [snd map] in Z2.
  exists w, j, s, d, q, t. split; [exact K1|]. split; [only_case|]. split; [exact K3|]. split; [exact Et|]. split; [|split; [exact Z1|]].
  - injection Z2 as E1 E2 E3 E4 E5. intros k H. cbn in H.
    repeat (destruct H as [<-|H]; [etransitivity; [eassumption|vm_compute; reflexivity]|]). destruct H.
  - rewrite Z1. intros H. inversion H as [|? ? N _]. apply N. now left.
Qed.
Print Assumptions c109_double_free_refuted.

(** ** C110: after recovery every key has the value it had at the start or at the end of the CP.
    False. *)
Definition values_kept (start_ : disk) (r0 : nat) (end_ : disk) (r1 : nat) (t : disk) (r : nat) : Prop :=
  forall k, value t r k = value start_ r0 k \/ value t r k = value end_ r1 k.

(** A leaf that is the root splits: 1 splits off 11 below the new root 60.  1 and 11 get to disk, the
    superblock does not.  The old root is given 11 as edge, which means nothing for a leaf, and loses
    its link to 11: the keys in 11 are gone.  The sanity check passes. *)
Definition ra_new (b : nat) := existsb (Nat.eqb b) [11; 60]%nat.
Definition ra_lvl (b : nat) : nat := if Nat.eqb b 100 then 2%nat else if Nat.eqb b 60 then 1%nat else 0%nat.
Definition ra_ops := [ORoot 100 60; OTransact 60 1 [11]%nat []].
Definition ra_rows (v : nat) : list nat := match v with 0 => [1]%nat | _ => [] end.
Definition ra_order := [1; 11; 60; 100]%nat.
Definition ra_evs := [EStart 8; EIssue 11; EIssue 60; EDone 11; EDone 60; EDone 1].
Definition ra_landed (b : nat) := existsb (Nat.eqb b) [1; 11; 60]%nat.
Definition ra_start : disk := disk_of [(1, leaf [(10%Z, 110); (20%Z, 120); (30%Z, 130); (40%Z, 140)] None)]%nat.
Definition ra_end : disk := disk_of [(1, leaf [(10%Z, 110); (20%Z, 120)] (Some 11)); (11, leaf [(30%Z, 130); (40%Z, 140)] None);
  (60, inode 1 [(20%Z, 1)] (Some 11) None)]%nat.
Theorem c110_leaf_root_refuted : exists w j s d q t,
  crashed ra_new ra_lvl Z.of_nat wx_meta ra_ops ra_rows w j ra_order (w_list w) d ra_evs s ra_landed /\
  only_cp ra_order ra_start ra_end /\
  RecovModel.walk wx_meta d ra_landed ra_order = Some q /\
  recover 20 3 wx_meta d ra_landed q (crash_disk ra_landed ra_start ra_end) 1 [21; 22]%nat ra_order 9 = Good t /\
  t_root t = 1%nat /\ t_sb t = 1%nat /\
  value ra_start 1 30 = Some 130%nat /\ value ra_end 60 30 = Some 130%nat /\ value (t_disk t) 1 30 = None /\
  ~ values_kept ra_start 1 ra_end 60 (t_disk t) (t_root t).
Proof.
  edestruct (case_of _ (fun d q => match recover 20 3 wx_meta d ra_landed q (crash_disk ra_landed ra_start ra_end) 1 [21; 22]%nat ra_order 9 with
      | Good t => Some (t_root t, t_sb t, value (t_disk t) 1 30) | _ => None end)
    ra_new ra_lvl Z.of_nat wx_meta ra_ops ra_rows ra_evs ra_order ra_landed) as (w & j & s & d & q & K1 & K2 & K3 & K4).
  all: crash_hyps.
  destruct (recover 20 3 wx_meta d ra_landed q (crash_disk ra_landed ra_start ra_end) 1 [21; 22]%nat ra_order 9) as [t| |] eqn:Et; try discriminate K4.
  assert (Z1 : t_root t = 1%nat) by congruence. assert (Z2 : t_sb t = 1%nat) by congruence.
  assert (Z3 : value (t_disk t) 1 30 = None) by congruence.
  exists w, j, s, d, q, t. split; [exact K1|]. split; [only_case|]. split; [exact K3|]. split; [exact Et|].
  assert (S1 : value ra_start 1 30 = Some 130%nat) by reflexivity. assert (S2 : value ra_end 60 30 = Some 130%nat) by reflexivity.
  ands; auto. intros H. specialize (H 30%Z). rewrite Z1, Z3, S1, S2 in H. destruct H; discriminate.
Qed.
Print Assumptions c110_leaf_root_refuted.

(** The root 50 is full (three entries and the edge); leaf 2 splits off 12, and the root splits for it.
    2 and 12 get to disk, 50 and the superblock do not.  The repair of 50 needs a second node and a new
    root, 22; but then 50 is entered in the superblock, as the node above it was the meta buffer.  With
    that superblock on disk the keys that went to the second node are lost at the next start. *)
Definition rb_new' (b : nat) := existsb (Nat.eqb b) [12; 51; 60]%nat.
Definition rb_ops := [ORoot 100 60; OTransact 60 50 [51]%nat []; OTransact 50 2 [12]%nat []].
Definition rb_rows (v : nat) : list nat := match v with 0 => [1; 2; 3; 4]%nat | 1 => [50]%nat | _ => [] end.
Definition rb_order := [2; 12; 50; 51; 60; 100]%nat.
Definition rb_evs := [EStart 8; EIssue 51; EIssue 60; EIssue 12; EDone 51; EDone 60; EDone 12; EDone 2].
Definition rb_landed (b : nat) := existsb (Nat.eqb b) [2; 12; 51; 60]%nat.
Definition rb_start : disk := disk_of [(1, leaf [(10%Z, 110)] (Some 2)); (2, leaf [(15%Z, 115); (20%Z, 120)] (Some 3));
  (3, leaf [(30%Z, 130)] (Some 4)); (4, leaf [(40%Z, 140)] None); (50, inode 1 [(10%Z, 1); (20%Z, 2); (30%Z, 3)] (Some 4) None)]%nat.
Definition rb_end : disk := disk_of [(1, leaf [(10%Z, 110)] (Some 2)); (2, leaf [(15%Z, 115)] (Some 12)); (12, leaf [(20%Z, 120)] (Some 3));
  (3, leaf [(30%Z, 130)] (Some 4)); (4, leaf [(40%Z, 140)] None);
  (50, inode 1 [(10%Z, 1); (15%Z, 2); (20%Z, 12)] None (Some 51)); (51, inode 1 [(30%Z, 3)] (Some 4) None); (60, inode 2 [(20%Z, 50)] (Some 51) None)]%nat.
Theorem c110_superblock_refuted : exists w j s d q t,
  crashed rb_new' wx_lvl Z.of_nat wx_meta rb_ops rb_rows w j rb_order (w_list w) d rb_evs s rb_landed /\
  only_cp rb_order rb_start rb_end /\
  RecovModel.walk wx_meta d rb_landed rb_order = Some q /\
  recover 20 3 wx_meta d rb_landed q (crash_disk rb_landed rb_start rb_end) 50 [21; 22]%nat rb_order 9 = Good t /\
  t_root t = 22%nat /\ t_sb t = 50%nat /\
  value rb_start 50 30 = Some 130%nat /\ value rb_end 60 30 = Some 130%nat /\
  value (t_disk t) (t_root t) 30 = Some 130%nat /\ value (t_disk t) (t_sb t) 30 = None /\
  ~ values_kept rb_start 50 rb_end 60 (t_disk t) (t_sb t).
Proof.
  edestruct (case_of _ (fun d q => match recover 20 3 wx_meta d rb_landed q (crash_disk rb_landed rb_start rb_end) 50 [21; 22]%nat rb_order 9 with
      | Good t => Some (t_root t, t_sb t, value (t_disk t) (t_root t) 30, value (t_disk t) (t_sb t) 30) | _ => None end)
    rb_new' wx_lvl Z.of_nat wx_meta rb_ops rb_rows rb_evs rb_order rb_landed) as (w & j & s & d & q & K1 & K2 & K3 & K4).
  all: crash_hyps.
  destruct (recover 20 3 wx_meta d rb_landed q (crash_disk rb_landed rb_start rb_end) 50 [21; 22]%nat rb_order 9) as [t| |] eqn:Et; try discriminate K4.
  assert (Z1 : t_root t = 22%nat) by congruence. assert (Z2 : t_sb t = 50%nat) by congruence.
  assert (Z3 : value (t_disk t) (t_root t) 30 = Some 130%nat) by congruence. assert (Z4 : value (t_disk t) (t_sb t) 30 = None) by congruence.
  exists w, j, s, d, q, t. split; [exact K1|]. split; [only_case|]. split; [exact K3|]. split; [exact Et|].
  assert (S1 : value rb_start 50 30 = Some 130%nat) by reflexivity. assert (S2 : value rb_end 60 30 = Some 130%nat) by reflexivity.
  ands; auto. intros H. specialize (H 30%Z). rewrite Z4, S1, S2 in H. destruct H; discriminate.
Qed.
Print Assumptions c110_superblock_refuted.

(** ** C111: recovery from any crash completes.  False.

    The interior root 50 splits off 51 below the new root 60; 50 and 51 get to disk, the superblock
    does not.  The old root is given 51, of its own level, as edge; the sanity check then fails, and the
    release assertion ends the process.  At the next start the old root has an edge, and the assertion
    in repair_root_node ends the process, each time. *)
Definition rc_start : disk := disk_of [(1, leaf [(10%Z, 110)] (Some 2)); (2, leaf [(20%Z, 120)] (Some 3)); (3, leaf [(30%Z, 130)] (Some 4));
  (4, leaf [(40%Z, 140)] None); (50, inode 1 [(10%Z, 1); (20%Z, 2); (30%Z, 3)] (Some 4) None)]%nat.
Definition rc_end : disk := disk_of [(1, leaf [(10%Z, 110)] (Some 2)); (2, leaf [(20%Z, 120)] (Some 3)); (3, leaf [(30%Z, 130)] (Some 4));
  (4, leaf [(40%Z, 140)] None); (50, inode 1 [(10%Z, 1); (20%Z, 2)] None (Some 51)); (51, inode 1 [(30%Z, 3)] (Some 4) None);
  (60, inode 2 [(20%Z, 50)] (Some 51) None)]%nat.
Definition rc_evs := [EStart 8; EIssue 51; EIssue 60; EDone 51; EDone 60; EDone 50].
Definition rc_landed (b : nat) := existsb (Nat.eqb b) [50; 51; 60]%nat.
(** The disk the first recovery leaves. *)
Definition rc_second : disk := dput (crash_disk rc_landed rc_start rc_end) 50 (set_mine (inode 1 [(10%Z, 1); (20%Z, 2)] (Some 51) None)).
Theorem c111_root_split_refuted : exists w j s d q,
  crashed bb_new wx_lvl Z.of_nat wx_meta bb_ops rb_rows w j bb_order (w_list w) d rc_evs s rc_landed /\
  only_cp bb_order rc_start rc_end /\
  RecovModel.walk wx_meta d rc_landed bb_order = Some q /\
  recover 20 3 wx_meta d rc_landed q (crash_disk rc_landed rc_start rc_end) 50 [21; 22]%nat bb_order 9 = Abort /\
  (exists t, events 20 3 wx_meta q (Tst (crash_disk rc_landed rc_start rc_end) (crash_disk rc_landed rc_start rc_end) 50 50 [21; 22]%nat []) (q_log q) = Good t /\
     (forall b, In b [1; 2; 3; 4; 50; 51; 60]%nat -> t_disk t b = rc_second b) /\ validate (t_disk t) 50 = false) /\
  recover 20 3 wx_meta d rc_landed q rc_second 50 [21; 22]%nat bb_order 9 = Abort.
Proof.
  edestruct (case_of _ (fun d q => (match recover 20 3 wx_meta d rc_landed q (crash_disk rc_landed rc_start rc_end) 50 [21; 22]%nat bb_order 9 with
      | Abort => true | _ => false end,
      match events 20 3 wx_meta q (Tst (crash_disk rc_landed rc_start rc_end) (crash_disk rc_landed rc_start rc_end) 50 50 [21; 22]%nat []) (q_log q) with
      | Good t => Some (map (t_disk t) [1; 2; 3; 4; 50; 51; 60]%nat, validate (t_disk t) 50) | _ => None end,
      match recover 20 3 wx_meta d rc_landed q rc_second 50 [21; 22]%nat bb_order 9 with Abort => true | _ => false end))
    bb_new wx_lvl Z.of_nat wx_meta bb_ops rb_rows rc_evs bb_order rc_landed) as (w & j & s & d & q & K1 & K2 & K3 & K4).
  all: crash_hyps.
  assert (Z1 := f_equal (fun x => fst (fst x)) K4). assert (Z2 := f_equal (fun x => snd (fst x)) K4). assert (Z3 := f_equal snd K4).
  clear K4. cbn [fst snd] in Z1, Z2, Z3.
  exists w, j, s, d, q. split; [exact K1|]. split; [only_case|]. split; [exact K3|].
  split; [destruct (recover _ _ _ _ _ _ _ _ _ _ _) in Z1 |- *; (reflexivity || discriminate Z1)|].
  split; [|destruct (recover _ _ _ _ _ _ rc_second _ _ _ _) in Z3 |- *; (reflexivity || discriminate Z3)].
  destruct (events _ _ _ _ _ _) as [t| |] eqn:Et; try discriminate Z2. exists t. split; [reflexivity|].
  assert (Y1 := f_equal (fun o => match o with Some x => fst x | None => [] end) Z2).
  assert (Y2 := f_equal (fun o => match o with Some x => snd x | None => true end) Z2). cbn [fst snd map] in Y1, Y2. clear Z2.
  split; [|exact Y2]. injection Y1 as E1 E2 E3 E4 E5 E6 E7. intros b H. cbn in H.
  repeat (destruct H as [<-|H]; [etransitivity; [eassumption|vm_compute; reflexivity]|]). destruct H.
Qed.
Print Assumptions c111_root_split_refuted.
