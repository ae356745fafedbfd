(** * C106 and the refuted C107: the blocks of an index after a crash. *)
From Coq Require Import ZArith NArith List Bool Arith Lia Permutation.
From Verif Require Import Base WbModel WbSpec WbProofs WbFlushProofs WbProperties DagModel DagSpec DagProofs DagProofs2
  DagProofs3 DagProperties LeafCrashModel LeafCrashSpec RecovModel RecovSpec RecovProperties
  RecovBlkModel RecovBlkSpec RecovBlkProofs.
From Verif Require FixedModel FixedSpec.
Import ListNotations.

(** ** C106 *)

(** After a crash at any moment of the flush of any CP, and however many blocks are allocated by the
    repairs and until the end of the next flush: a block the tree uses has one owner and is not free,
    and every block is owned once or free once.  This needs the stored bitmap to know the blocks of
    nodes both made and freed in the CP, and of roots made in it. *)
Theorem c106_blocks_after_crash : forall isnew lvl pos ismeta l rows w j order worder d evs s landed total bm n m,
  crashed isnew lvl pos ismeta l rows w j order worder d evs s landed -> knows_old total bm isnew ismeta j ->
  (forall b, In b (named j) -> isnew b = true -> merged l b = true -> bm (blk b) = true) ->
  (forall b u, rb_up (d_buf d b) = Some u -> ismeta u = true -> isnew b = true -> bm (blk b) = true) ->
  exists q, walk ismeta d landed order = Some q /\
    let u := FixedSpec.urun (FixedSpec.start total true bm) (recovery_ops q n m) in
    (forall b, in_use total bm isnew d landed b -> FixedSpec.copies (blk b) (FixedSpec.u_owned u) = 1%nat) /\
    (forall x, FixedSpec.copies x (FixedModel.f_q (FixedSpec.u_alloc u)) + FixedSpec.copies x (FixedSpec.u_owned u) =
               if (x <? total)%N then 1 else 0)%nat.
Proof. exact blocks_thm. Qed.
Print Assumptions c106_blocks_after_crash.

(** ** Cases *)
Definition free_queue (total : N) (bm : N -> bool) (q : rst) : list N :=
  FixedModel.f_q (FixedSpec.u_alloc (FixedSpec.urun (FixedSpec.start total true bm) (recovery_ops q 0 0))).
Definition bits (l : list nat) (x : N) : bool := existsb (fun b => N.eqb x (blk b)) l.

Ltac rows_case :=
  let v := fresh in let i := fresh in let Hi := fresh in
  intros v; destruct v as [|[|[|v]]];
  [ split; [cbn; repeat constructor; cbn; intuition discriminate|]; split; [|vm_compute; discriminate];
    intros i Hi; cbn in Hi; repeat (destruct Hi as [<-|Hi]; [split; reflexivity|]); destruct Hi ..
  | split; [constructor|]; split; [intros i []|]; cbn; discriminate ].
Ltac qd_case := let q := fresh in let H := fresh in
  intros q H; cbn in H; repeat (destruct H as [H|H]; [try discriminate; injection H as <-; lia|]); destruct H.
Ltac cons_case := let b := fresh in let H := fresh in let y := fresh in let Hb := fresh in
  intros b; split;
  [ intros H; cbn in H; repeat (destruct H as [H|H]; [try discriminate; injection H as <-; reflexivity|]); destruct H
  | intros H; apply existsb_exists in H; destruct H as (y & H & Hb); apply Nat.eqb_eq in Hb; subst y;
    cbn in H |- *; intuition congruence ].
Ltac old_case K2 := let b := fresh in let Hb := fresh in let Hm := fresh in let Z := fresh in
  intros b Hb Hm; rewrite K2 in Hb; cbn in Hb;
  repeat (destruct Hb as [<-|Hb]; [split; [vm_compute in Hm |- *; congruence|intros Z; vm_compute in Hm, Z |- *; congruence]|]); destruct Hb.

Definition wx_bm := bits [1; 2; 3; 4; 50; 60]%nat.

(** The crash of the case of C105: the block of 4 is free again, that of 11 is in use and those of 12
    and 51 are free. *)
Example c106_case : exists w j s d q,
  crashed wx_new wx_lvl wx_pos wx_meta wx_ops wx_rows w j wx_order (w_list w) d wx_evs s wx_landed /\
  knows_old 62 wx_bm wx_new wx_meta j /\
  (forall b, In b (named j) -> wx_new b = true -> merged wx_ops b = true -> wx_bm (blk b) = true) /\
  (forall b u, rb_up (d_buf d b) = Some u -> wx_meta u = true -> wx_new b = true -> wx_bm (blk b) = true) /\
  walk wx_meta d wx_landed wx_order = Some q /\
  decide d wx_landed 11 = Committed /\ decide d wx_landed 4 = Deleted /\
  map (fun b => FixedSpec.copies (blk b) (free_queue 62 wx_bm q)) [4; 11; 12; 51]%nat = [1; 0; 1; 1]%nat.
Proof.
  destruct c105_case as (H1 & H2 & H3 & H4 & H5 & H6 & H7 & _).
  edestruct (case_of _ (fun d q => (map (fun b => rb_up (d_buf d b)) [11; 12; 51]%nat, map (decide d wx_landed) [11; 4]%nat,
      map (fun b => FixedSpec.copies (blk b) (free_queue 62 wx_bm q)) [4; 11; 12; 51]%nat))
    wx_new wx_lvl wx_pos wx_meta wx_ops wx_rows wx_evs wx_order wx_landed) as (w & j & s & d & q & K1 & K2 & K3 & K4); auto.
  { vm_compute. reflexivity. }
  { intros x. cbn. intuition. }
  { cons_case. }
  exists w, j, s, d, q. split; [exact K1|]. split; [old_case K2|].
  split; [|split; [|split; [exact K3|]]].
  - intros b Hb Hn Hm. rewrite K2 in Hb. cbn in Hb.
    repeat (destruct Hb as [<-|Hb]; [vm_compute in Hn, Hm |- *; congruence|]). destruct Hb.
  - intros b u Hu Hm Hn. exfalso. apply Nat.eqb_eq in Hm. subst u.
    assert (Z := f_equal (fun o => fst (fst o)) K4). cbn [fst map] in Z. clear K4. injection Z as Z1 Z2 Z3.
    unfold wx_new in Hn. apply existsb_exists in Hn. destruct Hn as (y & Hy & E). apply Nat.eqb_eq in E. subst y. cbn in Hy.
    destruct Hy as [<-|[<-|[<-|[]]]]; congruence.
  - assert (Z := f_equal (fun o => snd (fst o)) K4). assert (Z' := f_equal snd K4). clear K4. cbn [fst snd] in Z, Z'.
    cbn [map] in Z. injection Z as Z1 Z2. auto.
Qed.

(** ** C107: every block is in use, or free once.  False without the two conditions on the bitmap.

    The full claim: after recovery a block in use is not in the queue of free blocks and any other
    block is in it once. *)
Definition blocks_right (total : N) (bm : N -> bool) (isnew ismeta : nat -> bool) (d : dag) (landed : nat -> bool)
    (order : list nat) (q : rst) : Prop :=
  forall b, In b order -> ismeta b = false ->
    (in_use total bm isnew d landed b -> FixedSpec.copies (blk b) (free_queue total bm q) = 0%nat) /\
    (~ in_use total bm isnew d landed b -> FixedSpec.copies (blk b) (free_queue total bm q) = 1%nat).

(** Leaf 1 splits off 11, and 11 is merged back before the CP is flushed; the crash comes before
    anything is on disk.  The block of 11 is still free in the bitmap, and is freed again: it is handed
    out twice. *)
Definition ba_new (b : nat) := Nat.eqb b 11.
Definition ba_rows (v : nat) : list nat := match v with 0 => [1]%nat | 1 => [50]%nat | _ => [] end.
Definition ba_ops := [OTransact 50 1 [11]%nat []; OTransact 50 1 [] [11]%nat].
Definition ba_order := [1; 11; 50]%nat.
Theorem c107_double_free_refuted : exists w j s d q,
  crashed ba_new wx_lvl wx_pos wx_meta ba_ops ba_rows w j ba_order (w_list w) d [EStart 8] s (fun b => existsb (Nat.eqb b) []) /\
  knows_old 52 (bits [1; 50]%nat) ba_new wx_meta j /\
  walk wx_meta d (fun b => existsb (Nat.eqb b) []) ba_order = Some q /\
  FixedSpec.copies 11 (free_queue 52 (bits [1; 50]%nat) q) = 2%nat /\
  ~ blocks_right 52 (bits [1; 50]%nat) ba_new wx_meta d (fun b => existsb (Nat.eqb b) []) ba_order q.
Proof.
  edestruct (case_of _ (fun d q => (decide d (fun b => existsb (Nat.eqb b) []) 11, FixedSpec.copies 11 (free_queue 52 (bits [1; 50]%nat) q)))
    ba_new wx_lvl wx_pos wx_meta ba_ops ba_rows [EStart 8] ba_order (fun b => existsb (Nat.eqb b) [])) as (w & j & s & d & q & K1 & K2 & K3 & K4).
  { vm_compute; reflexivity. }
  { vm_compute; reflexivity. }
  { intros m r H. cbn in H. repeat (destruct H as [H|H]; [discriminate|]). destruct H. }
  { discriminate. }
  { rows_case. }
  { qd_case. }
  { repeat constructor; cbn; intuition discriminate. }
  { vm_compute. reflexivity. }
  { intros x. cbn. intuition. }
  { cons_case. }
  assert (Z1 := f_equal fst K4). assert (Z2 := f_equal snd K4). clear K4. cbn [fst snd] in Z1, Z2.
  exists w, j, s, d, q. split; [exact K1|]. split; [old_case K2|]. split; [exact K3|]. split; [exact Z2|].
  intros B. destruct (B 11%nat) as [_ B2]; [cbn; auto|reflexivity|]. change (blk 11) with 11%N in B2. rewrite Z2 in B2.
  assert (X : 2%nat = 1%nat); [|discriminate X]. apply B2. intros [(E & _)|E]; [discriminate E|congruence].
Qed.
Print Assumptions c107_double_free_refuted.

(** A new root 60 is made over 50, which splits; everything the CP writes gets to disk, with the
    superblock that names 60, and the crash comes before the bitmap is stored.  The block of the root is
    free. *)
Definition bb_new (b : nat) := Nat.eqb b 60 || Nat.eqb b 51.
Definition bb_rows (v : nat) : list nat := match v with 1 => [50]%nat | _ => [] end.
Definition bb_ops := [ORoot 100 60; OTransact 60 50 [51]%nat []].
Definition bb_order := [50; 51; 60; 100]%nat.
Definition bb_evs := [EStart 8; EIssue 51; EIssue 60; EDone 51; EDone 60; EDone 50; EDone 100].
Definition bb_landed (b : nat) := existsb (Nat.eqb b) [50; 51; 60; 100]%nat.
Theorem c107_root_free_refuted : exists w j s d q,
  crashed bb_new wx_lvl wx_pos wx_meta bb_ops bb_rows w j bb_order (w_list w) d bb_evs s bb_landed /\
  knows_old 62 (bits [50]%nat) bb_new wx_meta j /\
  walk wx_meta d bb_landed bb_order = Some q /\
  in_use 62 (bits [50]%nat) bb_new d bb_landed 60 /\ FixedSpec.copies 60 (free_queue 62 (bits [50]%nat) q) = 1%nat /\
  ~ blocks_right 62 (bits [50]%nat) bb_new wx_meta d bb_landed bb_order q.
Proof.
  edestruct (case_of _ (fun d q => (decide d bb_landed 60, FixedSpec.copies 60 (free_queue 62 (bits [50]%nat) q)))
    bb_new wx_lvl wx_pos wx_meta bb_ops bb_rows bb_evs bb_order bb_landed) as (w & j & s & d & q & K1 & K2 & K3 & K4).
  { vm_compute; reflexivity. }
  { vm_compute; reflexivity. }
  { intros m r H. cbn in H |- *. repeat (destruct H as [H|H]; [try discriminate; injection H as <- <-; eauto|]). destruct H. }
  { discriminate. }
  { rows_case. }
  { qd_case. }
  { repeat constructor; cbn; intuition discriminate. }
  { vm_compute. reflexivity. }
  { intros x. cbn. intuition. }
  { cons_case. }
  assert (Z1 := f_equal fst K4). assert (Z2 := f_equal snd K4). clear K4. cbn [fst snd] in Z1, Z2.
  exists w, j, s, d, q. split; [exact K1|]. split; [old_case K2|]. split; [exact K3|]. split; [now right|]. split; [exact Z2|].
  intros B. destruct (B 60%nat) as [B1 _]; [cbn; auto|reflexivity|]. change (blk 60) with 60%N in B1. rewrite Z2 in B1.
  assert (X : 1%nat = 0%nat); [|discriminate X]. apply B1. now right.
Qed.
Print Assumptions c107_root_free_refuted.

(** The case of C105 when the stored bitmap has the bit of 12, which is set as soon as 12 is made
    (wb_cache.cpp 121).  12 is dropped, and its block is neither in use nor free. *)
Definition bc_bm := bits [1; 2; 3; 4; 12; 50; 60]%nat.
Theorem c107_leak_refuted : exists w j s d q,
  crashed wx_new wx_lvl wx_pos wx_meta wx_ops wx_rows w j wx_order (w_list w) d wx_evs s wx_landed /\
  knows_old 62 bc_bm wx_new wx_meta j /\ walk wx_meta d wx_landed wx_order = Some q /\
  decide d wx_landed 12 = Dropped /\ FixedSpec.copies 12 (free_queue 62 bc_bm q) = 0%nat /\
  ~ blocks_right 62 bc_bm wx_new wx_meta d wx_landed wx_order q.
Proof.
  destruct c105_case as (H1 & H2 & H3 & H4 & H5 & H6 & H7 & _).
  edestruct (case_of _ (fun d q => (decide d wx_landed 12, FixedSpec.copies 12 (free_queue 62 bc_bm q)))
    wx_new wx_lvl wx_pos wx_meta wx_ops wx_rows wx_evs wx_order wx_landed) as (w & j & s & d & q & K1 & K2 & K3 & K4); auto.
  { vm_compute. reflexivity. }
  { intros x. cbn. intuition. }
  { cons_case. }
  assert (Z1 := f_equal fst K4). assert (Z2 := f_equal snd K4). clear K4. cbn [fst snd] in Z1, Z2.
  exists w, j, s, d, q. split; [exact K1|]. split; [old_case K2|]. split; [exact K3|]. split; [exact Z1|]. split; [exact Z2|].
  intros B. destruct (B 12%nat) as [_ B2]; [cbn; intuition|reflexivity|]. change (blk 12) with 12%N in B2. rewrite Z2 in B2.
  assert (X : 0%nat = 1%nat); [|discriminate X]. apply B2. intros [(E & _)|E]; [discriminate E|congruence].
Qed.
Print Assumptions c107_leak_refuted.
