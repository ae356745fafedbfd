(** * C105: the walk of the index recovery over the dependency links. *)
From Coq Require Import ZArith List Bool Arith Lia Permutation.
From Verif Require Import Base WbModel WbSpec WbProofs WbFlushProofs WbProperties DagModel DagSpec DagProofs DagProofs2
  DagProofs3 DagProperties LeafCrashModel LeafCrashSpec LeafCrashProofs LeafCrashProofs2 LeafCrashProofs3
  RecovModel RecovSpec RecovProofs RecovProofs2 RecovProofs3.
Import ListNotations.

(** ** C105 *)

(** For any CP of any splits, merges, writes and root changes, and a crash at any moment of its flush:
    the walk ends and follows no null pointer.  It repairs exactly the nodes that are not on disk
    though an old node below them is, each once, and never before a repaired node below it; nothing
    on disk is repaired but the meta buffer; blocks are freed once, after all repairs, and they and
    the blocks kept are those of the nodes decided so (see C104), new roots apart. *)
Theorem c105_recovery_walk : forall isnew lvl pos ismeta l rows w j order worder d evs s landed,
  strict isnew lvl pos ismeta [] [] l = true -> roots_free (wb_init isnew) l = true ->
  roots_written l -> written l <> [] -> rows_ok lvl isnew rows l ->
  wrunj (wb_init isnew) l = Some (w, j) -> Permutation worder (w_list w) ->
  qd_ok evs -> frun true (flush_init w worder) evs = Some s ->
  NoDup order -> (forall x, In x order <-> In x (named j)) -> rebuild ismeta j order = Some d ->
  consistent (history s) landed ->
  exists q, walk ismeta d landed order = Some q /\
    (forall b, ismeta b = false ->
       (In (Repair b) (q_log q) <->
        landed b = false /\ exists h, under w (merged l) h b /\ landed h = true /\ isnew h = false /\ merged l h = false)) /\
    (forall l1 b l2, q_log q = l1 ++ Repair b :: l2 -> ~ In (Repair b) l1 /\ ~ In (Repair b) l2 /\
       forall x, merged l x = false -> under w (merged l) x b -> In (Repair x) (q_log q) -> In (Repair x) l1) /\
    (forall b, mended (q_log q) b -> landed b = false \/ ismeta b = true) /\
    (forall l1 b l2, q_log q = l1 ++ Free b :: l2 -> ~ In (Free b) l1 /\ forall x, ~ mended l2 x) /\
    (forall b, (forall u, rb_up (d_buf d b) = Some u -> ismeta u = false) ->
       (In (Free b) (q_log q) <-> decide d landed b = Deleted \/ decide d landed b = Dropped /\ merged l b = true) /\
       (In b (q_kept q) <-> decide d landed b = Restored \/ decide d landed b = Committed)).
Proof. exact recov_thm. Qed.
Print Assumptions c105_recovery_walk.

(** ** A case: leaves 1 to 4 below 50, below the root 60.  1 splits off 11 and 2 splits off 12, 4 is
    merged into 3, and 50 splits off 51.  The crash comes when 1 and 3 are on disk and 2 is not. *)
Definition wx_new (b : nat) : bool := existsb (Nat.eqb b) [11; 12; 51]%nat.
Definition wx_lvl (b : nat) : nat :=
  if Nat.eqb b 100 then 3%nat else if Nat.eqb b 60 then 2%nat else if Nat.leb 50 b then 1%nat else 0%nat.
Definition wx_pos (b : nat) : Z :=
  match b with 1 => 10%Z | 11 => 15%Z | 2 => 20%Z | 12 => 25%Z | 3 => 30%Z | 4 => 40%Z | 51 => 5%Z | _ => 0%Z end.
Definition wx_meta (b : nat) : bool := Nat.eqb b 100.
Definition wx_rows (v : nat) : list nat :=
  match v with 0 => [1; 2; 3; 4]%nat | 1 => [50]%nat | 2 => [60]%nat | _ => [] end.
Definition wx_ops : list wop :=
  [OTransact 50 1 [11]%nat []; OTransact 50 2 [12]%nat []; OTransact 50 3 [] [4]%nat; OTransact 60 50 [51]%nat []].
Definition wx_evs : list ev := [EStart 8; EIssue 11; EIssue 12; EIssue 51; EIssue 3; EDone 11; EDone 1; EDone 3; EDone 51].
Definition wx_landed (b : nat) : bool := existsb (Nat.eqb b) [11; 1; 3; 51]%nat.
Definition wx_order : list nat := [1;2;3;4;11;12;50;51;60]%nat.

Lemma wx_rows_ok : rows_ok wx_lvl wx_new wx_rows wx_ops.
Proof.
  intros v. destruct v as [|[|[|v]]].
  1-3: split; [cbn; repeat constructor; cbn; intuition discriminate|]; split; [|vm_compute; discriminate].
  1-3: intros i Hi; cbn in Hi; repeat (destruct Hi as [<-|Hi]; [split; reflexivity|]); destruct Hi.
  split; [constructor|]. split; [intros i []|]. cbn. discriminate.
Qed.
Lemma wx_roots : roots_written wx_ops.
Proof. intros m r H. cbn in H. repeat (destruct H as [H|H]; [discriminate|]). destruct H. Qed.
Lemma wx_qd : qd_ok wx_evs.
Proof.
  intros q H. cbn in H.
  repeat (destruct H as [H|H]; [try discriminate; injection H as <-; lia|]). destruct H.
Qed.

(** 50 and the root are repaired, in that order; the block of 11 is kept and that of 4 freed; 12 and 51
    are dropped. *)
Example c105_case :
  strict wx_new wx_lvl wx_pos wx_meta [] [] wx_ops = true /\ roots_free (wb_init wx_new) wx_ops = true /\
  roots_written wx_ops /\ written wx_ops <> [] /\ rows_ok wx_lvl wx_new wx_rows wx_ops /\ qd_ok wx_evs /\ NoDup wx_order /\
  exists w j s d q, wrunj (wb_init wx_new) wx_ops = Some (w, j) /\
    frun true (flush_init w (w_list w)) wx_evs = Some s /\
    (forall x, In x wx_order <-> In x (named j)) /\ rebuild wx_meta j wx_order = Some d /\
    consistent (history s) wx_landed /\ walk wx_meta d wx_landed wx_order = Some q /\
    q_log q = [Fine 3; Fine 1; Repair 50; Repair 60; Pruned 2; Free 4]%nat /\ q_kept q = [11]%nat.
Proof.
  split; [vm_compute; reflexivity|]. split; [vm_compute; reflexivity|]. split; [exact wx_roots|]. split; [discriminate|].
  split; [exact wx_rows_ok|]. split; [exact wx_qd|]. split; [repeat constructor; cbn; intuition discriminate|].
  assert (X : match wrunj (wb_init wx_new) wx_ops with
              | Some (w, j) =>
                  match frun true (flush_init w (w_list w)) wx_evs, rebuild wx_meta j wx_order with
                  | Some s, Some d => match walk wx_meta d wx_landed wx_order with
                                      | Some q => Some (named j, history s, q_log q, q_kept q) | None => None end
                  | _, _ => None
                  end
              | None => None
              end = Some ([50; 1; 11; 50; 2; 12; 50; 3; 4; 60; 50; 51]%nat,
                          [Issue 11; Issue 12; Issue 51; Issue 3; Done 11; Issue 1; Done 1; Done 3; Done 51],
                          [Fine 3; Fine 1; Repair 50; Repair 60; Pruned 2; Free 4]%nat, [11]%nat)) by (vm_compute; reflexivity).
  destruct (wrunj (wb_init wx_new) wx_ops) as [[w j]|] eqn:E; [|discriminate].
  destruct (frun true (flush_init w (w_list w)) wx_evs) as [s|] eqn:Es; [|discriminate].
  destruct (rebuild wx_meta j wx_order) as [d|] eqn:Ed; [|discriminate].
  destruct (walk wx_meta d wx_landed wx_order) as [q|] eqn:Eq; [|discriminate].
  assert (X1 := f_equal (fun o => match o with Some (a, _, _, _) => a | None => [] end) X).
  assert (X2 := f_equal (fun o => match o with Some (_, a, _, _) => a | None => [] end) X).
  assert (X3 := f_equal (fun o => match o with Some (_, _, a, _) => a | None => [] end) X).
  assert (X4 := f_equal (fun o => match o with Some (_, _, _, a) => a | None => [] end) X).
  cbv beta iota in X1, X2, X3, X4. clear X. exists w, j, s, d, q.
  split; [exact eq_refl|]. split; [exact Es|]. split; [|split; [exact Ed|split; [|auto]]].
  - rewrite X1. intros x. cbn. intuition.
  - rewrite X2. intros b. split.
    + intros H. cbn in H. repeat (destruct H as [H|H]; [try discriminate; injection H as <-; reflexivity|]). destruct H.
    + intros H. unfold wx_landed in H. apply existsb_exists in H. destruct H as (y & H & Hb). apply Nat.eqb_eq in Hb. subst y.
      cbn in H |- *. intuition congruence.
Qed.
