(** * C104: the leaves found after a crash. *)
From Coq Require Import ZArith List Bool Arith Lia Permutation.
From Verif Require Import Base WbModel WbSpec DagModel DagSpec
  LeafCrashModel LeafCrashSpec LeafCrashProofs LeafCrashProofs3.
Import ListNotations.

(** Whatever leaves were changed, split and merged in a CP, and wherever its flush is cut off: the
    leaves on disk form one chain from the first leaf to the end, each key at its place.  Every key
    has its value from the start or from the end of the CP, the same of the two for keys that share a
    leaf at the start or at the end.  With the flush complete it is the end of the CP.  The first pass
    of the recovery keeps the blocks of exactly the leaves of this chain.  [v]: the level; the leaves
    of the tree are level 0, and the same holds for the nodes of every other level. *)
Theorem c104_leaves_after_crash : forall isnew lvl pos ismeta v l m0 L0 L w j order worder d evs s landed,
  strict isnew lvl pos ismeta [] [] (map wop_of l) = true ->
  roots_written (map wop_of l) -> written (map wop_of l) <> [] ->
  start_ok v isnew lvl m0 L0 -> lsteps v lvl isnew m0 L0 l L ->
  wrunj (wb_init isnew) (map wop_of l) = Some (w, j) -> Permutation worder (w_list w) ->
  qd_ok evs -> frun true (flush_init w worder) evs = Some s ->
  (forall x, In x order <-> In x (named j)) -> rebuild ismeta j order = Some d ->
  consistent (history s) landed ->
  let disk := disk_after m0 (lrun m0 l) (merged (map wop_of l)) landed in
  exists L' (new : Z -> bool), path disk (head (ids L0)) (ids L') None /\ fits disk None L' /\
    (forall k, val disk (ids L') k = if new k then val (lrun m0 l) (ids L) k else val m0 (ids L0) k) /\
    (forall k1 k2, home L0 k1 = home L0 k2 \/ home L k1 = home L k2 -> new k1 = new k2) /\
    (f_fin s = 1%nat -> ids L' = ids L /\ forall k, val disk (ids L') k = val (lrun m0 l) (ids L) k) /\
    (forall b, In b (ids L0) \/ In b (ids L) ->
       (In b (ids L') <-> decide d landed b <> Deleted /\ decide d landed b <> Dropped)).
Proof. exact crash_thm. Qed.
Print Assumptions c104_leaves_after_crash.

(** ** A case: leaves 1, 2, 3 and 4 below 50.  Leaf 1 is changed and splits off 11; 11 and 2 become 11
    and 12; leaf 4 is changed and merged into 3.  The crash comes when 11, 12 and 1 are on disk and 3
    is being written. *)
Definition lx_new (b : nat) : bool := Nat.leb 10 b && Nat.ltb b 20.
Definition lx_lvl (b : nat) : nat := match b with 100 => 2 | 50 => 1 | _ => 0 end.
Definition lx_pos (b : nat) : Z :=
  match b with 1 => 10%Z | 11 => 15%Z | 12 => 17%Z | 2 => 20%Z | 3 => 30%Z | 4 => 40%Z | _ => 0%Z end.
Definition lx_meta (b : nat) : bool := Nat.eqb b 100.
Definition lx_m0 : mem_t := fun b =>
  if Nat.eqb b 1 then Ln [(1%Z, 1%nat); (5%Z, 5%nat); (8%Z, 8%nat)] (Some 2%nat)
  else if Nat.eqb b 2 then Ln [(15%Z, 15%nat)] (Some 3%nat)
  else if Nat.eqb b 3 then Ln [(25%Z, 25%nat)] (Some 4%nat)
  else if Nat.eqb b 4 then Ln [(35%Z, 35%nat)] None
  else Ln [] None.
Definition lx_L0 : layout := [(1%nat, Some 10%Z); (2%nat, Some 20%Z); (3%nat, Some 30%Z); (4%nat, None)].
Definition lx_ops : list lop :=
  [LPut 1 [(1%Z, 1%nat); (5%Z, 77%nat); (8%Z, 8%nat)];
   LTx 50 1 [(1%Z, 1%nat); (5%Z, 77%nat)] [(11%nat, [(8%Z, 8%nat)])] [];
   LTx 50 11 [(8%Z, 8%nat)] [(12%nat, [(15%Z, 15%nat)])] [2%nat];
   LPut 4 [(35%Z, 99%nat)];
   LTx 50 3 [(25%Z, 25%nat); (35%Z, 99%nat)] [] [4%nat]].
Definition lx_L : layout := [(1%nat, Some 5%Z); (11%nat, Some 10%Z); (12%nat, Some 20%Z); (3%nat, None)].
Definition lx_evs : list ev := [EStart 8; EIssue 11; EDone 11; EIssue 12; EIssue 4; EDone 12; EDone 4; EDone 1; EIssue 3].
Definition lx_landed (b : nat) : bool := existsb (Nat.eqb b) [11; 12; 4; 1]%nat.

(** Decision procedures for the premises. *)
Definition overb (lo : option Z) (k : Z) : bool := match lo with Some x => Z.ltb x k | None => true end.
Fixpoint fitsb (m : mem_t) (lo : option Z) (L : layout) : bool :=
  match L with
  | [] => true
  | (i, hi) :: r =>
      forallb (fun e => overb lo (fst e) && uptob hi (fst e)) (n_ents (m i)) &&
      (match r, hi with [], None => true | _ :: _, Some x => overb lo x | _, _ => false end) && fitsb m hi r
  end.
Lemma overb_ok lo k : overb lo k = true -> over lo k.
Proof. destruct lo; cbn; [apply Z.ltb_lt|auto]. Qed.
Lemma uptob_ok hi k : uptob hi k = true -> upto hi k.
Proof. destruct hi; cbn; [apply Z.leb_le|auto]. Qed.
Lemma fitsb_ok m : forall L lo, fitsb m lo L = true -> fits m lo L.
Proof.
  induction L as [|[i hi] r IH]; intros lo H; [exact I|]. cbn [fitsb fits] in *.
  apply andb_true_iff in H. destruct H as [H H3]. apply andb_true_iff in H. destruct H as [H1 H2]. ands; auto.
  - intros k v Hk. rewrite forallb_forall in H1. specialize (H1 _ Hk). apply andb_true_iff in H1. cbn in H1.
    split; [apply overb_ok|apply uptob_ok]; tauto.
  - destruct r, hi; split; try discriminate; auto.
  - intros x ->. destruct r; [discriminate|]. now apply overb_ok.
Qed.

Lemma lx_start : start_ok 0 lx_new lx_lvl lx_m0 lx_L0.
Proof.
  unfold start_ok. ands.
  - discriminate.
  - cbn. repeat constructor; cbn; intuition discriminate.
  - cbn. repeat (constructor; cbn).
  - apply fitsb_ok. reflexivity.
  - intros i Hi. cbn in Hi. destruct Hi as [<-|[<-|[<-|[<-|[]]]]]; split; reflexivity.
Qed.
Lemma lx_steps : lsteps 0 lx_lvl lx_new lx_m0 lx_L0 lx_ops lx_L.
Proof.
  unfold lx_ops. eapply SCons.
  { apply SPut; [cbn; tauto|]. apply fitsb_ok. vm_compute. reflexivity. }
  eapply SCons.
  { apply (STx _ _ _ _ [] 1 (Some 10%Z) [] [(2%nat, Some 20%Z); (3%nat, Some 30%Z); (4%nat, None)] 50 _ (Some 5%Z)
             [(11%nat, Some 10%Z)]); try reflexivity. apply fitsb_ok. vm_compute. reflexivity. }
  cbn [app]. eapply SCons.
  { apply (STx _ _ _ _ [(1%nat, Some 5%Z)] 11 (Some 10%Z) [(2%nat, Some 20%Z)] [(3%nat, Some 30%Z); (4%nat, None)] 50 _ (Some 10%Z)
             [(12%nat, Some 20%Z)]); try reflexivity. apply fitsb_ok. vm_compute. reflexivity. }
  cbn [app]. eapply SCons.
  { apply SPut; [cbn; tauto|]. apply fitsb_ok. vm_compute. reflexivity. }
  eapply SCons.
  { apply (STx _ _ _ _ [(1%nat, Some 5%Z); (11%nat, Some 10%Z); (12%nat, Some 20%Z)] 3 (Some 30%Z) [(4%nat, None)] [] 50 _ None
             []); try reflexivity. apply fitsb_ok. vm_compute. reflexivity. }
  cbn [app]. apply SNil.
Qed.
Lemma lx_roots : roots_written (map wop_of lx_ops).
Proof. intros m r H. cbn in H. repeat (destruct H as [H|H]; [discriminate|]). destruct H. Qed.
Lemma lx_qd : qd_ok lx_evs.
Proof.
  intros q H. cbn in H.
  repeat (destruct H as [H|H]; [try discriminate; injection H as <-; lia|]). destruct H.
Qed.

(** The chain on disk is 1, 11, 12, 3, 4: key 5 has its new value, key 35 its old one. *)
Example c104_case :
  strict lx_new lx_lvl lx_pos lx_meta [] [] (map wop_of lx_ops) = true /\
  roots_written (map wop_of lx_ops) /\ written (map wop_of lx_ops) <> [] /\
  start_ok 0 lx_new lx_lvl lx_m0 lx_L0 /\ lsteps 0 lx_lvl lx_new lx_m0 lx_L0 lx_ops lx_L /\ qd_ok lx_evs /\
  exists w j s d, wrunj (wb_init lx_new) (map wop_of lx_ops) = Some (w, j) /\
    frun true (flush_init w (w_list w)) lx_evs = Some s /\
    (forall x, In x [1;2;3;4;11;12;50]%nat <-> In x (named j)) /\
    rebuild lx_meta j [1;2;3;4;11;12;50]%nat = Some d /\
    consistent (history s) lx_landed /\
    let disk := disk_after lx_m0 (lrun lx_m0 lx_ops) (merged (map wop_of lx_ops)) lx_landed in
    path disk (Some 1%nat) [1;11;12;3;4]%nat None /\
    val disk [1;11;12;3;4]%nat 5 = Some 77%nat /\ val disk [1;11;12;3;4]%nat 35 = Some 35%nat /\
    val disk [1;11;12;3;4]%nat 15 = Some 15%nat /\
    map (decide d lx_landed) [1;2;3;4;11;12]%nat = [Untouched; Deleted; Untouched; Restored; Committed; Committed].
Proof.
  split; [vm_compute; reflexivity|]. split; [exact lx_roots|]. split; [discriminate|].
  split; [exact lx_start|]. split; [exact lx_steps|]. split; [exact lx_qd|].
  assert (X : match wrunj (wb_init lx_new) (map wop_of lx_ops) with
              | Some (w, j) =>
                  match frun true (flush_init w (w_list w)) lx_evs, rebuild lx_meta j [1;2;3;4;11;12;50]%nat with
                  | Some s, Some d => Some (named j, history s, map (decide d lx_landed) [1;2;3;4;11;12]%nat)
                  | _, _ => None
                  end
              | None => None
              end = Some ([50;1;11;1;11;12;2;50;3;4]%nat,
                          [Issue 11; Done 11; Issue 12; Issue 4; Done 12; Issue 1; Done 4; Done 1; Issue 3],
                          [Untouched; Deleted; Untouched; Restored; Committed; Committed])) by (vm_compute; reflexivity).
  destruct (wrunj (wb_init lx_new) (map wop_of lx_ops)) as [[w j]|] eqn:E; [|discriminate].
  destruct (frun true (flush_init w (w_list w)) lx_evs) as [s|] eqn:Es; [|discriminate].
  destruct (rebuild lx_meta j [1;2;3;4;11;12;50]%nat) as [d|] eqn:Ed; [|discriminate].
  assert (X1 := f_equal (fun o => match o with Some (a, _, _) => a | None => [] end) X).
  assert (X2 := f_equal (fun o => match o with Some (_, a, _) => a | None => [] end) X).
  assert (X3 := f_equal (fun o => match o with Some (_, _, a) => a | None => [] end) X).
  cbv beta iota in X1, X2, X3. clear X. exists w, j, s, d.
  split; [exact eq_refl|]. split; [exact Es|]. split; [|split; [exact Ed|split]].
  - rewrite X1. intros x. cbn. intuition.
  - rewrite X2. intros b. split.
    + intros H. cbn in H. repeat (destruct H as [H|H]; [try discriminate; injection H as <-; reflexivity|]). destruct H.
    + intros H. unfold lx_landed in H. apply existsb_exists in H. destruct H as (y & H & Hb). apply Nat.eqb_eq in Hb. subst y.
      cbn in H |- *. intuition congruence.
  - cbn zeta. split; [repeat (constructor; cbn)|]. split; [vm_compute; reflexivity|].
    split; [vm_compute; reflexivity|]. split; [vm_compute; reflexivity|exact X3].
Qed.
