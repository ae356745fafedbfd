(** * C98 and the refuted C99: the dependency links found again after a crash. *)
From Coq Require Import ZArith List Bool Arith Lia Permutation.
From Verif Require Import Base WbModel WbSpec WbProofs WbFlushProofs WbProperties
  DagModel DagSpec DagProofs DagProofs2 DagProofs3.
Import ListNotations.

(** ** C98 *)

(** The journal of any CP is processed without following a null pointer, without an endless walk
    and without failing an assertion, in whatever order the buffers are visited; every wait count is
    the number of buffers below; and, unless a node that already waited for another one became
    root, a buffer waits for the same buffer as in the CP, nodes merged away passed over. *)
Theorem c98_links_rebuilt : forall isnew lvl pos ismeta l order,
  strict isnew lvl pos ismeta [] [] l = true ->
  exists w j, wrunj (wb_init isnew) l = Some (w, j) /\
  ((forall x, In x order <-> In x (named j)) ->
   exists d, rebuild ismeta j order = Some d /\
    (forall x, In x (d_ids d) <-> In x (named j)) /\ NoDup (d_ids d) /\
    (forall b, In b (named j) -> rb_freed (d_buf d b) = merged l b) /\
    (forall u, rb_wait (d_buf d u) =
       Z.of_nat (length (filter (fun b => match rb_up (d_buf d b) with Some x => Nat.eqb x u | None => false end)
                                (d_ids d)))) /\
    (roots_free (wb_init isnew) l = true ->
     forall b u, merged l b = false -> (rb_up (d_buf d b) = Some u <-> next_up w (merged l) b u))).
Proof. exact rebuild_thm. Qed.
Print Assumptions c98_links_rebuilt.

(** The run with a journal is the run of the write-back cache. *)
Lemma wrunj_wrun : forall l w w' j, wrunj w l = Some (w', j) -> wrun w l = Some w'.
Proof.
  induction l as [|o l IH]; intros w w' j H; cbn in *; [congruence|].
  destruct (wexec w o) as [w1|]; [|discriminate].
  destruct (wrunj w1 l) as [[w2 j2]|] eqn:E; [|discriminate]. injection H as <- <-. eauto.
Qed.
Lemma strict_legal : forall isnew lvl pos ismeta l gone intro,
  strict isnew lvl pos ismeta gone intro l = true -> legal isnew lvl pos intro l = true.
Proof.
  intros isnew lvl pos ismeta. induction l as [|o l IH]; intros gone intro H; [reflexivity|].
  cbn [strict legal] in *. apply andb_true_iff in H. destruct H as [H1 H2].
  unfold strict_op in H1. apply andb_true_iff in H1. destruct H1 as [H1 _].
  apply andb_true_iff in H1. destruct H1 as [H1 _]. rewrite H1. cbn. eauto.
Qed.

(** A write done was issued before. *)
Lemma step_issued : forall one s e s', fstep one s e = Some s' ->
  (forall b, In b (f_fly s) -> In (Issue b) (f_log s)) ->
  (forall b h1 h2, f_log s = h1 ++ Done b :: h2 -> In (Issue b) h2) ->
  (forall b, In b (f_fly s') -> In (Issue b) (f_log s')) /\
  (forall b h1 h2, f_log s' = h1 ++ Done b :: h2 -> In (Issue b) h2).
Proof.
  assert (HR : forall b x l, In x (remove1 b l) -> In x l).
  { induction l as [|y l IH]; cbn; [auto|]. destruct (Nat.eqb y b); cbn; tauto. }
  assert (HC : forall e l, (forall b, e <> Done b) ->
     (forall b h1 h2, l = h1 ++ Done b :: h2 -> In (Issue b) h2) ->
     forall b h1 h2, e :: l = h1 ++ Done b :: h2 -> In (Issue b) h2).
  { intros e l Hn H b h1 h2 E. destruct h1 as [|x h1]; cbn in E; injection E as E1 E2.
    - exfalso. eapply Hn. exact E1.
    - eapply H. exact E2. }
  intros one s e s' HS HF HD. destruct e as [qd|b|b|b up wt]; cbn [fstep] in HS.
  - destruct (take_dirty (f_w s) (f_rest s) qd) as [p r]. injection HS as <-. cbn. auto.
  - destruct (mem b (f_batch s)); [|discriminate]. injection HS as <-. cbn. split.
    + intros x [->|Hx]; auto.
    + apply HC; [discriminate|assumption].
  - destruct (mem b (f_fly s)) eqn:Em; [|discriminate]. apply mem_iff in Em.
    destruct (on_done (f_w s) (f_rest s) (f_count s) b) as [[[m' r'] nx] more].
    assert (HL : forall x h1 h2, Done b :: f_log s = h1 ++ Done x :: h2 -> In (Issue x) h2).
    { intros x h1 h2 E. destruct h1 as [|y h1]; cbn in E; injection E as E1 E2.
      - subst. auto.
      - eapply HD. exact E2. }
    injection HS as <-. destruct nx as [u|]; [destruct one|]; cbn [f_fly f_log]; split;
      try exact HL; try (intros x Hx; right; auto; apply HF; eapply HR; exact Hx).
    + intros x [->|Hx]; [now left|]. right. right. apply HF. eapply HR. exact Hx.
    + apply HC; [discriminate|exact HL].
  - destruct (match b_st (f_w s b) with Clean => true | _ => negb (b_cp (f_w s b)) end); [|discriminate].
    injection HS as <-. cbn. auto.
Qed.
Lemma run_issued : forall one evs s s', frun one s evs = Some s' ->
  (forall b, In b (f_fly s) -> In (Issue b) (f_log s)) ->
  (forall b h1 h2, f_log s = h1 ++ Done b :: h2 -> In (Issue b) h2) ->
  forall b h1 h2, f_log s' = h1 ++ Done b :: h2 -> In (Issue b) h2.
Proof.
  induction evs as [|e l IH]; intros s s' HS HF HD; cbn [frun] in HS.
  - injection HS as <-. assumption.
  - destruct (fstep one s e) as [s1|] eqn:E; [|discriminate].
    destruct (step_issued one s e s1 E HF HD). eapply IH; eassumption.
Qed.

(** Whenever the write of a buffer had begun before the crash, the buffers found to wait for it are
    on disk: those below it need no repair. *)
Theorem c98_below_on_disk : forall isnew lvl pos ismeta l order worder w j d evs s b u,
  strict isnew lvl pos ismeta [] [] l = true -> roots_free (wb_init isnew) l = true ->
  roots_written l -> written l <> [] ->
  wrunj (wb_init isnew) l = Some (w, j) -> Permutation worder (w_list w) ->
  qd_ok evs -> frun true (flush_init w worder) evs = Some s ->
  (forall x, In x order <-> In x (named j)) -> rebuild ismeta j order = Some d ->
  merged l b = false -> rb_up (d_buf d b) = Some u -> done_first (history s) b u.
Proof.
  intros isnew lvl pos ismeta l order worder w j d evs s b u HS HRF HRW HW HJ HP HQ HF HO HB Hb Hu.
  destruct (c98_links_rebuilt isnew lvl pos ismeta l order HS) as (w0 & j0 & EJ & HR).
  rewrite HJ in EJ. injection EJ as <- <-. destruct (HR HO) as (d0 & ED & _ & _ & _ & _ & HL).
  rewrite HB in ED. injection ED as <-. apply (HL HRF b u Hb) in Hu.
  assert (HD := proj1 (c43_children_first_each_once isnew lvl pos l w worder evs s
                 (strict_legal _ _ _ _ _ _ _ HS) HRW HW (wrunj_wrun _ _ _ _ HJ) HP HQ HF)).
  assert (HI : forall x h1 h2, history s = h1 ++ Done x :: h2 -> In (Issue x) h1).
  { intros x h1 h2 E. unfold history in E.
    assert (E' : f_log s = rev h2 ++ Done x :: rev h1).
    { rewrite <- (rev_involutive (f_log s)), E, rev_app_distr. cbn. now rewrite <- app_assoc. }
    apply in_rev. refine (run_issued true evs (flush_init w worder) s HF _ _ x _ _ E').
    - intros y [].
    - intros y [|z h] h' X; discriminate X. }
  clear Hb. induction Hu as [b u U1 U2|b f u U1 U2 U3 IH]; [now apply HD|].
  intros h1 h2 E. assert (Hf : In (Done f) h1) by (eapply IH; exact E).
  apply in_split in Hf. destruct Hf as [a1 [a2 Ea]]. subst h1.
  rewrite <- app_assoc in E. cbn in E.
  assert (Hi := HI f a1 _ E). apply in_split in Hi. destruct Hi as [c1 [c2 Ec]]. subst a1.
  rewrite <- app_assoc in E. cbn in E.
  assert (X := HD b f U1 _ _ E). rewrite !in_app_iff. auto.
Qed.
Print Assumptions c98_below_on_disk.

(** A CP: leaf 5 below node 3 splits off node 10; a new root 20 is put above 1 by a root split that
    makes 21; then 3 is merged into its left sibling 2, though 5 waits to be written below 3; then
    leaf 5 splits again. *)
Definition ex_new (b : nat) : bool := Nat.leb 10 b && Nat.ltb b 100.
Definition ex_lvl (b : nat) : nat :=
  match b with 100 => 5 | 20 => 4 | 1 => 3 | 21 => 3 | 2 => 2 | 3 => 2 | _ => 1 end.
Definition ex_pos (b : nat) : Z := Z.of_nat b.
Definition ex_meta (b : nat) : bool := Nat.eqb b 100.
Definition ex_ops : list wop :=
  [OWrite 5; OTransact 3 5 [10%nat] []; ORoot 100 20; OTransact 20 1 [21%nat] [];
   OTransact 1 2 [] [3%nat]; OTransact 2 5 [11%nat] []; OTransact 2 10 [12%nat] []].
Example c98_case :
  strict ex_new ex_lvl ex_pos ex_meta [] [] ex_ops = true /\
  roots_free (wb_init ex_new) ex_ops = true /\
  match wrunj (wb_init ex_new) ex_ops with
  | Some (w, j) =>
      above w 5 = Some 3%nat /\ above w 3 = Some 2%nat /\
      match rebuild ex_meta j [1;2;3;5;10;11;12;20;21;100]%nat with
      | Some d => rb_up (d_buf d 5) = Some 2%nat /\ rb_up (d_buf d 10) = Some 5%nat /\
                  rb_up (d_buf d 12) = Some 5%nat /\ rb_wait (d_buf d 5) = 3%Z /\
                  rb_up (d_buf d 1) = Some 100%nat
      | None => False
      end
  | None => False
  end.
Proof. vm_compute. ands; reflexivity. Qed.

(** ** C99 *)

(** The merge that leaves the root with one child, followed by the collapse of the root: in the CP
    the child waits below the old root, after the crash below the meta buffer, which was not made
    to wait for it. *)
Definition col2_ops : list wop := [OTransact 2 5 [] [6%nat]; ORoot 100 5; OFree 2].
Theorem c99_links_after_root_change_refuted :
  exists isnew lvl pos ismeta l order w j d b u,
    strict isnew lvl pos ismeta [] [] l = true /\ wrunj (wb_init isnew) l = Some (w, j) /\
    (forall x, In x order <-> In x (named j)) /\ rebuild ismeta j order = Some d /\
    merged l b = false /\ rb_up (d_buf d b) = Some u /\ ~ next_up w (merged l) b u /\
    b_wait (w_buf w u) = 0%Z.
Proof.
  destruct (wrunj (wb_init ex_new) col2_ops) as [[w j]|] eqn:E; [|vm_compute in E; discriminate].
  assert (Hj : j = [Rec (Some 2) (Some 5) [] [6]; Rec (Some 100) (Some 5) [] []]%nat).
  { assert (X : match wrunj (wb_init ex_new) col2_ops with Some (_, y) => y | None => [] end =
                [Rec (Some 2) (Some 5) [] [6]; Rec (Some 100) (Some 5) [] []]%nat) by reflexivity.
    now rewrite E in X. }
  assert (Ha : above w 5 = Some 2%nat /\ b_wait (w_buf w 100) = 0%Z).
  { assert (X : match wrunj (wb_init ex_new) col2_ops with
                | Some (y, _) => above y 5 = Some 2%nat /\ b_wait (w_buf y 100) = 0%Z | None => False end)
      by (vm_compute; auto).
    now rewrite E in X. }
  destruct (rebuild ex_meta j [2;5;6;100]%nat) as [d|] eqn:Ed; [|subst j; vm_compute in Ed; discriminate].
  assert (Hd : rb_up (d_buf d 5) = Some 100%nat).
  { assert (X : match rebuild ex_meta j [2;5;6;100]%nat with
                | Some y => rb_up (d_buf y 5) = Some 100%nat | None => False end)
      by (subst j; vm_compute; auto).
    now rewrite Ed in X. }
  exists ex_new, ex_lvl, ex_pos, ex_meta, col2_ops, [2;5;6;100]%nat, w, j, d, 5%nat, 100%nat. ands; try tauto.
  - intros x. subst j. cbn. intuition.
  - intros H. inversion H as [b u H1 H2|b u v H1 H2 H3]; subst; destruct Ha as [Ha _].
    + rewrite Ha in H1. discriminate.
    + rewrite Ha in H1. injection H1 as <-. discriminate.
Qed.
Print Assumptions c99_links_after_root_change_refuted.
