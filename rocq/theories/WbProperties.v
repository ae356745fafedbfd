(** * C43, C44 and the refuted C83-C85: the index write-back cache. *)
From Coq Require Import ZArith List Bool Arith Lia Permutation.
From Verif Require Import Base WbModel WbSpec WbProofs WbFlushProofs.
Import ListNotations.

Lemma run_start : forall isnew lvl pos l, legal isnew lvl pos [] l = true ->
  exists w, wrun (wb_init isnew) l = Some w /\
    LInv isnew lvl pos (intro_ops [] l) (roots_of l) w /\
    (forall x, In x (w_list w) <-> In x (written l)).
Proof.
  intros isnew lvl pos l HG.
  destruct (run_linv isnew lvl pos l [] [] (wb_init isnew) (linv_init _ _ _) HG)
    as [w [roots [E [H1 [H2 [H3 _]]]]]]; [reflexivity|].
  exists w. ands; auto.
  - eapply linv_weaken; [exact H1|intros; now left|]. intros x Hx. apply H2 in Hx.
    destruct Hx as [[]|Hx]; assumption.
  - intros x. rewrite H3. cbn. intuition.
Qed.

(** ** C44 *)

(** After any legal sequence of index operations nothing crashed, no buffer waits
    for itself through any number of links, every wait count is the number of
    buffers that will notify, and every buffer waited for is on the dirty list. *)
Theorem c44_links_acyclic : forall isnew lvl pos l,
  legal isnew lvl pos [] l = true ->
  exists w, wrun (wb_init isnew) l = Some w /\
    (forall n b, climb w (S n) b <> Some b) /\
    (forall u, exists ds, NoDup ds /\ (forall d, In d ds <-> above w d = Some u) /\
                          b_wait (w_buf w u) = Z.of_nat (length ds)) /\
    (forall d u, above w d = Some u -> In u (written l) /\ isnew u = false).
Proof.
  intros isnew lvl pos l HG. destruct (run_start _ _ _ _ HG) as [w [E [HL HW]]].
  exists w. ands; auto.
  - intros n b H. apply (climb_lower _ _ _ _ _ _ _ _ _ HL) in H. now apply lower_irrefl in H.
  - intros u. destruct (li_cnt _ _ _ _ _ _ HL) as [lk [H1 [H2 H3]]].
    exists (filter (fun b => isup (above w b) u) lk). ands.
    + now apply NoDup_filter.
    + intros d. rewrite filter_In, isup_iff, H2. split; [tauto|]. intros Hd. split; [congruence|assumption].
    + apply H3.
  - intros d u H. apply (li_up _ _ _ _ _ _ HL) in H. rewrite <- HW. tauto.
Qed.
Print Assumptions c44_links_acyclic.

(** The hypotheses are met: an interior node 2 with leaves 3 and 4 below meta
    buffer 1; leaf 3 splits (10), the new leaf splits (11), leaf 4 merges into a
    new node 12, node 2 splits (20) below a new root 21. *)
Definition ex_new (b : nat) : bool := Nat.leb 10 b.
Definition ex_lvl (b : nat) : nat :=
  match b with 1 => 9 | 2 => 1 | 20 => 1 | 21 => 2 | _ => 0 end%nat.
Definition ex_pos (b : nat) : Z :=
  Z.of_nat match b with 10 => 5 | 11 => 7 | 4 => 10 | 12 => 11 | 20 => 1 | _ => 0 end.
Definition ex_ops : list wop :=
  [OWrite 4; OTransact 2 3 [10] []; OTransact 2 10 [11] []; OTransact 2 3 [12] [4];
   ORoot 1 21; OTransact 21 2 [20] []].

Example c44_case :
  legal ex_new ex_lvl ex_pos [] ex_ops = true /\
  match wrun (wb_init ex_new) ex_ops with
  | Some w => map (above w) [3; 10; 11; 12; 21; 2; 20] =
                [Some 2; Some 3; Some 3; Some 3; Some 1; Some 1; Some 2] /\
              map (fun b => b_wait (w_buf w b)) [1; 2; 3] = [2; 2; 3]%Z
  | None => False
  end.
Proof. vm_compute. auto. Qed.

(** ** C43 *)

Lemma filter_true : forall l : list nat, filter (fun _ => true) l = l.
Proof. induction l as [|x l IH]; cbn; congruence. Qed.

Lemma flush_start : forall isnew lvl pos l w order,
  legal isnew lvl pos [] l = true -> roots_written l -> written l <> [] ->
  wrun (wb_init isnew) l = Some w -> Permutation order (w_list w) ->
  NoDup order /\ (forall d u, In d order -> above w d = Some u -> In u order) /\
  (forall d, above w d <> None -> In d order) /\
  FInv order (above w) (flush_init w order) [] [] [] /\ idle_ok (flush_init w order) /\
  (forall x, In x order <-> In x (written l)) /\
  (forall d u, above w d = Some u -> lower lvl pos d u).
Proof.
  intros isnew lvl pos l w order HG HR HNE HE HP.
  destruct (run_start _ _ _ _ HG) as [w' [E [HL HW]]]. rewrite HE in E. injection E as <-.
  assert (HO : forall x, In x order <-> In x (w_list w)).
  { intros x. split; apply perm_in; [|symmetry]; exact HP. }
  assert (HN : NoDup order).
  { apply (Permutation_NoDup (Permutation_sym HP)). apply (li_nd _ _ _ _ _ _ HL). }
  assert (HD : forall d, above w d <> None -> In d order).
  { intros d Hd. apply HO. destruct (li_down _ _ _ _ _ _ HL d Hd) as [H|H]; [assumption|].
    apply HW. unfold roots_of in H. apply in_flat_map in H. destruct H as [o [Ho Hr]].
    destruct o as [b|p c n f|m r|b]; try destruct Hr as []; subst. eapply HR. eassumption. contradiction. }
  assert (HLen : length order <> 0%nat).
  { intros H. apply length_zero_iff_nil in H. destruct (written l) as [|x q] eqn:Ew; [congruence|].
    assert (Hx : In x order) by (apply HO, HW; now left). rewrite H in Hx. destruct Hx. }
  ands; auto.
  - intros d u Hd H. apply HO. now apply (li_up _ _ _ _ _ _ HL) in H.
  - constructor; cbn [flush_init f_w f_rest f_count f_batch f_fly f_started f_fin f_log app];
      try easy.
    + constructor.
    + intros b Hb _. ands; [reflexivity| |].
      * destruct (li_cnt _ _ _ _ _ _ HL) as [lk [H1 [H2 H3]]]. rewrite H3. f_equal.
        unfold pend. rewrite (filter_ext _ (fun _ => true)) by reflexivity.
        rewrite filter_true. unfold cnt. apply Permutation_length. apply NoDup_Permutation.
        -- now apply NoDup_filter.
        -- now apply NoDup_filter.
        -- intros d. rewrite !filter_In, !isup_iff, H2. split; intros [A B]; split; auto.
           congruence.
      * destruct (li_st _ _ _ _ _ _ HL b) as [[_ [_ H]]|[H _]]; [assumption|].
        exfalso. apply H. now apply HO.
    + intros b Hb _ _. destruct (li_st _ _ _ _ _ _ HL b) as [[_ [H _]]|[H _]]; [assumption|].
      exfalso. apply H. now apply HO.
    + rewrite (li_count _ _ _ _ _ _ HL). rewrite (Permutation_length HP). cbn. lia.
    + cbn [length]. destruct (length order); [congruence|reflexivity].
  - intros Hs. discriminate Hs.
  - intros x. rewrite HO. apply HW.
  - intros d u H. now apply (li_up _ _ _ _ _ _ HL) in H.
Qed.

Lemma lower_rank : forall lvl pos (up : nat -> option nat) (L : list nat),
  (forall d u, up d = Some u -> lower lvl pos d u) ->
  exists rank : nat -> nat, forall d u, In d L -> up d = Some u -> (rank d < rank u)%nat.
Proof.
  intros lvl pos up L H.
  set (lb := fun d u : nat => Nat.ltb (lvl d) (lvl u) ||
                              (Nat.eqb (lvl d) (lvl u) && Z.ltb (pos u) (pos d))).
  assert (HB : forall d u, lb d u = true <-> lower lvl pos d u).
  { intros d u. unfold lb, lower. rewrite orb_true_iff, andb_true_iff, Nat.ltb_lt, Nat.eqb_eq, Z.ltb_lt.
    reflexivity. }
  exists (fun u => length (filter (fun d => lb d u) L)). intros d u Hd Hu. apply H in Hu.
  assert (HS : forall x, lb x d = true -> lb x u = true).
  { intros x Hx. apply HB. apply HB in Hx. exact (lower_trans _ _ _ _ _ Hx Hu). }
  assert (Hdd : lb d d = false).
  { destruct (lb d d) eqn:E; [|reflexivity]. apply HB in E. now apply lower_irrefl in E. }
  assert (Hdu : lb d u = true) by (now apply HB).
  assert (HLe : forall l, (length (filter (fun x => lb x d) l) <= length (filter (fun x => lb x u) l))%nat).
  { induction l as [|x l IH]; [reflexivity|]. cbn [filter].
    destruct (lb x d) eqn:E; [rewrite (HS x E); cbn; lia|]. destruct (lb x u); cbn; lia. }
  induction L as [|x l IH]; [destruct Hd|]. cbn [filter]. destruct Hd as [->|Hd].
  - rewrite Hdd, Hdu. cbn. specialize (HLe l). lia.
  - specialize (IH Hd). destruct (lb x d) eqn:E; [rewrite (HS x E); cbn; lia|].
    destruct (lb x u); cbn; lia.
Qed.

(** In every flush by one fiber of what any legal CP dirtied, whatever the order
    in which the dirty list is read and the writes complete, and whatever the
    next CP does with clean buffers: a buffer is written after all those that
    wait below it, none is written twice, only dirtied ones are, the end is
    reported only when all are on disk, and the flush never gets stuck before. *)
Theorem c43_children_first_each_once : forall isnew lvl pos l w order evs s,
  legal isnew lvl pos [] l = true -> roots_written l -> written l <> [] ->
  wrun (wb_init isnew) l = Some w -> Permutation order (w_list w) ->
  qd_ok evs -> frun true (flush_init w order) evs = Some s ->
  (forall d u, above w d = Some u -> done_first (history s) d u) /\
  NoDup (issues (history s)) /\ NoDup (dones (history s)) /\
  (forall b, In b (issues (history s)) -> In b (written l)) /\
  (f_fin s = 1%nat <-> forall b, In b (written l) -> In b (dones (history s))) /\
  (f_fin s <= 1)%nat /\
  (f_started s = true -> stuck true s ->
     f_fin s = 1%nat /\ forall b, In b (written l) -> In b (dones (history s))).
Proof.
  intros isnew lvl pos l w order evs s HG HR HNE HE HP HQ HF.
  destruct (flush_start _ _ _ _ _ _ HG HR HNE HE HP) as [HN [HC [HD [FI [II [HO HLow]]]]]].
  destruct (run_finv order (above w) HN HC _ _ _ _ _ FI II HQ HF) as [D [passed [F I]]].
  assert (HDn : forall b, In b (dones (history s)) <-> In b D).
  { intros b. rewrite <- (fi_dones _ _ _ _ _ _ F). rewrite !in_dones. unfold history.
    symmetry. apply in_rev. }
  assert (HDL : incl D order).
  { intros x Hx. apply (fi_in _ _ _ _ _ _ F). apply in_app_iff. now left. }
  assert (HDN : NoDup D) by (assert (N := fi_nd _ _ _ _ _ _ F); apply nd_app in N; tauto).
  assert (HIP : Permutation (issues (history s)) (D ++ f_fly s)).
  { etransitivity; [|apply (fi_issues _ _ _ _ _ _ F)]. unfold issues, history.
    apply Permutation_flat_map. symmetry. apply Permutation_rev. }
  assert (HFIN : f_fin s = 1%nat <-> incl order D).
  { rewrite (fi_fin _ _ _ _ _ _ F). destruct (Nat.eqb_spec (length D) (length order)) as [Q|Q].
    - split; [|reflexivity]. intros _. apply NoDup_length_incl; [assumption|lia|assumption].
    - split; [discriminate|]. intros H. exfalso. apply Q.
      apply Nat.le_antisymm; now apply NoDup_incl_length. }
  ands.
  - intros d u Hu h1 h2 Hh.
    eapply (ordered_split order (above w)); [apply (fi_ord _ _ _ _ _ _ F)|exact Hh| |exact Hu].
    apply HD. congruence.
  - eapply Permutation_NoDup; [symmetry; exact HIP|]. assert (N := fi_nd _ _ _ _ _ _ F).
    rewrite app_assoc in N. apply nd_app in N. tauto.
  - unfold history. apply (Permutation_NoDup (l := dones (f_log s))).
    + unfold dones. apply Permutation_flat_map. apply Permutation_rev.
    + rewrite (fi_dones _ _ _ _ _ _ F). assumption.
  - intros b Hb. apply HO. apply (perm_in _ _ _ HIP) in Hb. apply (fi_in _ _ _ _ _ _ F).
    rewrite app_assoc. apply in_app_iff. now left.
  - rewrite HFIN. split.
    + intros H b Hb. apply HDn, H, HO. assumption.
    + intros H b Hb. apply HDn, H, HO. assumption.
  - rewrite (fi_fin _ _ _ _ _ _ F). destruct (Nat.eqb _ _); lia.
  - intros Hs Hst.
    assert (Hf : f_fly s = []).
    { destruct (f_fly s) as [|x q] eqn:E; [reflexivity|]. destruct (Hst x) as [_ H].
      cbn [fstep] in H. rewrite E in H. unfold mem in H. cbn [existsb] in H.
      rewrite Nat.eqb_refl in H. cbn [orb] in H.
      destruct (on_done (f_w s) (f_rest s) (f_count s) x) as [[[? ?] ?] ?]. discriminate. }
    assert (Hb : f_batch s = []).
    { destruct (f_batch s) as [|x q] eqn:E; [reflexivity|]. destruct (Hst x) as [H _].
      cbn [fstep] in H. rewrite E in H. unfold mem in H. cbn [existsb] in H.
      rewrite Nat.eqb_refl in H. discriminate. }
    destruct (finv_end order (above w) HN HC s D passed F I) as [H1 H2]; auto.
    + exact (lower_rank _ _ _ _ HLow).
    + split; [assumption|]. intros b Hb'. apply HDn, H1, HO. assumption.
Qed.
Print Assumptions c43_children_first_each_once.

(** The CP of [c44_case]: a complete flush, completions out of order, with the
    next CP reusing the flushed leaf 11. *)
Definition ex_evs : list ev :=
  [EStart 3; EIssue 10; EIssue 4; EDone 10; EIssue 11; EDone 11; EReuse 11 (Some 3) 1; EDone 4;
   EDone 12; EDone 3; EDone 21; EDone 20; EDone 2; EDone 1].

Lemma ex_roots : roots_written ex_ops.
Proof.
  intros m r H. unfold ex_ops in H. cbn in H.
  repeat (destruct H as [H|H]; [try discriminate; injection H as <- <-; vm_compute; tauto|]).
  destruct H.
Qed.
Lemma ex_qd : qd_ok ex_evs.
Proof.
  intros q H. cbn in H.
  repeat (destruct H as [H|H]; [try discriminate; injection H as <-; lia|]). destruct H.
Qed.

Example c43_case :
  legal ex_new ex_lvl ex_pos [] ex_ops = true /\ roots_written ex_ops /\ written ex_ops <> [] /\
  qd_ok ex_evs /\
  match wrun (wb_init ex_new) ex_ops with
  | Some w =>
      match frun true (flush_init w (w_list w)) ex_evs with
      | Some s => f_fin s = 1%nat /\ f_started s = true /\ f_fly s = [] /\ f_batch s = [] /\
          history s = [Issue 10; Issue 4; Done 10; Issue 12; Issue 11; Done 11; Issue 20; Done 4;
                       Issue 21; Done 12; Issue 3; Done 3; Done 21; Done 20; Issue 2; Done 2;
                       Issue 1; Done 1]
      | None => False
      end
  | None => False
  end.
Proof.
  split; [reflexivity|]. split; [exact ex_roots|]. split; [discriminate|]. split; [exact ex_qd|].
  vm_compute. auto 10.
Qed.

(** ** What the links mean for the tree operations *)

Lemma run_app : forall l1 l2 w, wrun w (l1 ++ l2) =
  match wrun w l1 with Some w' => wrun w' l2 | None => None end.
Proof.
  induction l1 as [|o l1 IH]; intros l2 w; [reflexivity|]. cbn [app wrun].
  destruct (wexec w o); [apply IH|reflexivity].
Qed.

Lemma legal_app : forall isnew lvl pos l1 l2 i, legal isnew lvl pos i (l1 ++ l2) =
  legal isnew lvl pos i l1 && legal isnew lvl pos (intro_ops i l1) l2.
Proof.
  intros isnew lvl pos. induction l1 as [|o l1 IH]; intros l2 i; [reflexivity|].
  cbn [app legal]. rewrite IH, andb_assoc. reflexivity.
Qed.

(** A link stays for the rest of the CP unless the node is merged away. *)
Lemma above_stays : forall isnew lvl pos l intro roots w x u,
  LInv isnew lvl pos intro roots w -> legal isnew lvl pos intro l = true ->
  (forall n, isnew n = true -> ~ In n intro -> above w n = None) ->
  above w x = Some u -> isnew x = true \/ (forall o, In o l -> merged_by x o = false) ->
  exists w', wrun w l = Some w' /\ above w' x = Some u.
Proof.
  intros isnew lvl pos. induction l as [|o l IH]; intros intro roots w x u HL HG HN Hx HM.
  - exists w. auto.
  - cbn [legal] in HG. apply andb_true_iff in HG. destruct HG as [HO HG].
    destruct (exec_linv isnew lvl pos _ _ _ _ HL HO HN) as [w1 [E [H1 [H2 [H3 [H4 H5]]]]]].
    cbn [wrun]. rewrite E. eapply IH; [exact H1|exact HG|exact H3| |].
    + destruct (isnew x) eqn:En.
      { rewrite H4; congruence. }
      destruct HM as [HM|HM]; [congruence|]. specialize (HM o (or_introl eq_refl)).
      destruct o as [b|p c news freeds|m r|b]; try (rewrite H5; exact Hx).
      * cbn in HM. apply (proj1 (mem_false x freeds)) in HM. destruct H5 as [_ [H6 H7]].
        destruct (Nat.eq_dec x c) as [->|Hxc].
        -- rewrite H6 by assumption. now rewrite Hx.
        -- rewrite H7; auto. intros Hn. cbn [legal_op] in HO.
           apply andb_true_iff in HO. destruct HO as [HO _].
           apply andb_true_iff in HO. destruct HO as [_ HO].
           rewrite forallb_forall in HO. specialize (HO x Hn). rewrite En in HO. discriminate.
      * destruct H5 as [H6 H7]. destruct (Nat.eq_dec x r) as [->|Hxr].
        -- rewrite H6. now rewrite Hx.
        -- now rewrite H7.
    + destruct HM as [HM|HM]; [now left|]. right. intros o' Ho'. apply HM. now right.
Qed.

(** No link before the first operation that places the node. *)
Lemma above_none : forall isnew lvl pos l intro roots w x,
  LInv isnew lvl pos intro roots w -> legal isnew lvl pos intro l = true ->
  (forall n, isnew n = true -> ~ In n intro -> above w n = None) ->
  above w x = None -> (forall o, In o l -> placed_by x o = false) ->
  exists w' roots', wrun w l = Some w' /\ above w' x = None /\
     LInv isnew lvl pos (intro_ops intro l) roots' w' /\
     (forall n, isnew n = true -> ~ In n (intro_ops intro l) -> above w' n = None).
Proof.
  intros isnew lvl pos. induction l as [|o l IH]; intros intro roots w x HL HG HN Hx HM.
  - exists w, roots. auto.
  - cbn [legal] in HG. apply andb_true_iff in HG. destruct HG as [HO HG].
    destruct (exec_linv isnew lvl pos _ _ _ _ HL HO HN) as [w1 [E [H1 [H2 [H3 [H4 H5]]]]]].
    cbn [wrun]. rewrite E. eapply IH; [exact H1|exact HG|exact H3| |].
    + specialize (HM o (or_introl eq_refl)).
      destruct o as [b|p c news freeds|m r|b]; try (rewrite H5; exact Hx).
      * cbn in HM. apply orb_false_iff in HM. destruct HM as [HM Hf].
        apply orb_false_iff in HM. destruct HM as [Hc Hn].
        apply Nat.eqb_neq in Hc. apply (proj1 (mem_false x _)) in Hf.
        apply (proj1 (mem_false x _)) in Hn. destruct H5 as [_ [_ H7]].
        rewrite H7; auto.
      * cbn in HM. apply Nat.eqb_neq in HM. destruct H5 as [_ H7]. rewrite H7; auto.
    + intros o' Ho'. apply HM. now right.
Qed.

Lemma run_init : forall isnew lvl pos l, legal isnew lvl pos [] l = true ->
  exists w' roots', wrun (wb_init isnew) l = Some w' /\
     LInv isnew lvl pos (intro_ops [] l) roots' w' /\
     (forall n, isnew n = true -> ~ In n (intro_ops [] l) -> above w' n = None).
Proof.
  intros isnew lvl pos l HG.
  destruct (run_linv isnew lvl pos l [] [] (wb_init isnew) (linv_init _ _ _) HG)
    as [w [roots [E [H1 [_ [_ [H4 _]]]]]]]; [reflexivity|]. exists w, roots. auto.
Qed.

(** Where the nodes of a split or merge end up in the waits-for relation: the
    new nodes below the old left node. *)
Lemma new_above : forall isnew lvl pos l1 l2 p c news freeds w n,
  legal isnew lvl pos [] (l1 ++ OTransact p c news freeds :: l2) = true ->
  wrun (wb_init isnew) (l1 ++ OTransact p c news freeds :: l2) = Some w ->
  isnew c = false -> In n news -> above w n = Some c.
Proof.
  intros isnew lvl pos l1 l2 p c news freeds w n HG HE Hc Hn.
  rewrite legal_app in HG. apply andb_true_iff in HG. destruct HG as [G1 G2].
  cbn [legal] in G2. apply andb_true_iff in G2. destruct G2 as [GO G2].
  destruct (run_init _ _ _ _ G1) as [w1 [r1 [E1 [L1 N1]]]].
  rewrite run_app, E1 in HE. cbn [wrun] in HE.
  destruct (exec_linv isnew lvl pos _ _ _ _ L1 GO N1) as [w2 [E2 [L2 [_ [N2 [_ [H5 _]]]]]]].
  rewrite E2 in HE.
  assert (Hnew : isnew n = true).
  { cbn [legal_op] in GO. apply andb_true_iff in GO. destruct GO as [GO _].
    apply andb_true_iff in GO. destruct GO as [_ GO]. rewrite forallb_forall in GO.
    specialize (GO n Hn). rewrite !andb_true_iff in GO. tauto. }
  assert (Ha : above w2 n = Some c) by (rewrite H5 by assumption; now rewrite Hc).
  destruct (above_stays _ _ _ _ _ _ _ n c L2 G2 N2 Ha (or_introl Hnew)) as [w3 [E3 H3]].
  rewrite HE in E3. injection E3 as <-. exact H3.
Qed.

(** The left node below its parent, when this is the first operation of the CP
    that places it and it is not merged away later. *)
Lemma child_above : forall isnew lvl pos l1 l2 p c news freeds w,
  legal isnew lvl pos [] (l1 ++ OTransact p c news freeds :: l2) = true ->
  wrun (wb_init isnew) (l1 ++ OTransact p c news freeds :: l2) = Some w ->
  isnew p = false ->
  (forall o, In o l1 -> placed_by c o = false) ->
  (forall o, In o l2 -> merged_by c o = false) -> above w c = Some p.
Proof.
  intros isnew lvl pos l1 l2 p c news freeds w HG HE Hp HB HA.
  rewrite legal_app in HG. apply andb_true_iff in HG. destruct HG as [G1 G2].
  cbn [legal] in G2. apply andb_true_iff in G2. destruct G2 as [GO G2].
  destruct (above_none isnew lvl pos l1 [] [] (wb_init isnew) c (linv_init _ _ _) G1)
    as [w1 [r1 [E1 [H1 [L1 N1]]]]]; [reflexivity|reflexivity|assumption|].
  rewrite run_app, E1 in HE. cbn [wrun] in HE.
  destruct (exec_linv isnew lvl pos _ _ _ _ L1 GO N1) as [w2 [E2 [L2 [_ [N2 [_ [_ [H5 _]]]]]]]].
  rewrite E2 in HE.
  assert (Hcf : ~ In c freeds).
  { intros Hf. cbn [legal_op] in GO. apply andb_true_iff in GO. destruct GO as [_ GO].
    rewrite forallb_forall in GO. specialize (GO c Hf). apply andb_true_iff in GO.
    destruct GO as [_ GO]. apply Z.ltb_lt in GO. lia. }
  assert (Ha : above w2 c = Some p).
  { rewrite H5 by assumption. rewrite H1. unfold real. now rewrite Hp. }
  destruct (above_stays _ _ _ _ _ _ _ c p L2 G2 N2 Ha (or_intror HA)) as [w3 [E3 H3]].
  rewrite HE in E3. injection E3 as <-. exact H3.
Qed.

(** In every flush, the new nodes of a split or merge are on disk before the
    write of the old left node begins; and the left node is on disk before its
    old parent is written, if this is the first operation of the CP that places
    it and it is not merged away later in the CP. *)
Theorem c43_transaction_order : forall isnew lvl pos l1 l2 p c news freeds w order evs s,
  let l := l1 ++ OTransact p c news freeds :: l2 in
  legal isnew lvl pos [] l = true -> roots_written l ->
  wrun (wb_init isnew) l = Some w -> Permutation order (w_list w) ->
  qd_ok evs -> frun true (flush_init w order) evs = Some s ->
  (isnew c = false -> forall n, In n news -> done_first (history s) n c) /\
  (isnew p = false -> (forall o, In o l1 -> placed_by c o = false) ->
   (forall o, In o l2 -> merged_by c o = false) -> done_first (history s) c p).
Proof.
  intros isnew lvl pos l1 l2 p c news freeds w order evs s l HG HR HE HP HQ HF.
  assert (HNE : written l <> []).
  { intros H. assert (Hc : In c (written l)).
    { unfold written, l. apply in_flat_map. exists (OTransact p c news freeds). split.
      - apply in_app_iff. right. now left.
      - cbn. apply in_app_iff. right. cbn. auto. }
    rewrite H in Hc. destruct Hc. }
  destruct (c43_children_first_each_once _ _ _ _ _ _ _ _ HG HR HNE HE HP HQ HF) as [H _].
  split.
  - intros Hc n Hn. apply H. eapply new_above; eassumption.
  - intros Hp HB HA. apply H. eapply child_above; eassumption.
Qed.
Print Assumptions c43_transaction_order.

Example c43_transaction_case :
  ex_ops = [OWrite 4] ++ OTransact 2 3 [10] [] ::
           [OTransact 2 10 [11] []; OTransact 2 3 [12] [4]; ORoot 1 21; OTransact 21 2 [20] []] /\
  ex_new 3 = false /\ ex_new 2 = false /\
  (forall o, In o [OWrite 4] -> placed_by 3 o = false) /\
  (forall o, In o [OTransact 2 10 [11] []; OTransact 2 3 [12] [4]; ORoot 1 21; OTransact 21 2 [20] []] ->
             merged_by 3 o = false).
Proof.
  repeat split; intros o H; repeat (destruct H as [<-|H]; [reflexivity|]); destruct H.
Qed.

(** What a run of operations followed by a flush in list order leads to. *)
Definition outcome (one : bool) (isnew : nat -> bool) (l : list wop) (evs : list ev) :
  option (list fev * nat * bool * list nat * list nat * list nat) :=
  match wrun (wb_init isnew) l with
  | Some w => match frun one (flush_init w (w_list w)) evs with
              | Some s => Some (history s, f_fin s, f_started s, f_batch s, f_fly s, f_rest s)
              | None => None
              end
  | None => None
  end.

Lemma outcome_run : forall one isnew l evs h n st ba fl re,
  outcome one isnew l evs = Some (h, n, st, ba, fl, re) ->
  exists w s, wrun (wb_init isnew) l = Some w /\
    frun one (flush_init w (w_list w)) evs = Some s /\
    history s = h /\ f_fin s = n /\ f_started s = st /\ f_batch s = ba /\ f_fly s = fl /\ f_rest s = re.
Proof.
  intros one isnew l evs h n st ba fl re H. unfold outcome in H.
  destruct (wrun (wb_init isnew) l) as [w|]; [|discriminate].
  destruct (frun one (flush_init w (w_list w)) evs) as [s|] eqn:E; [|discriminate].
  injection H as <- <- <- <- <- <-. exists w, s. ands; auto.
Qed.

Ltac cases_in H := cbn in H;
  repeat (destruct H as [H|H]; [try discriminate; injection H; intros; subst; try lia; try (vm_compute; tauto)|]);
  try destruct H.

(** ** C83: a new root and the superblock that names it *)

(** The provable part: the new root is on disk before the meta buffer is written
    if no earlier operation of the CP placed that node below another one. *)
Theorem c83_root_before_meta_partial : forall isnew lvl pos l1 l2 m r w order evs s,
  let l := l1 ++ ORoot m r :: l2 in
  legal isnew lvl pos [] l = true -> roots_written l ->
  wrun (wb_init isnew) l = Some w -> Permutation order (w_list w) ->
  qd_ok evs -> frun true (flush_init w order) evs = Some s ->
  (forall o, In o l1 -> placed_by r o = false) ->
  (forall o, In o l2 -> merged_by r o = false) -> done_first (history s) r m.
Proof.
  intros isnew lvl pos l1 l2 m r w order evs s l HG HR HE HP HQ HF HB HA.
  assert (HNE : written l <> []).
  { intros H. assert (Hc : In m (written l)).
    { unfold written, l. apply in_flat_map. exists (ORoot m r). split.
      - apply in_app_iff. right. now left.
      - cbn. auto. }
    rewrite H in Hc. destruct Hc. }
  destruct (c43_children_first_each_once _ _ _ _ _ _ _ _ HG HR HNE HE HP HQ HF) as [H _].
  apply H. clear H. unfold l in HG, HE.
  rewrite legal_app in HG. apply andb_true_iff in HG. destruct HG as [G1 G2].
  cbn [legal] in G2. apply andb_true_iff in G2. destruct G2 as [GO G2].
  destruct (above_none isnew lvl pos l1 [] [] (wb_init isnew) r (linv_init _ _ _) G1)
    as [w1 [r1 [E1 [H1 [L1 N1]]]]]; [reflexivity|reflexivity|assumption|].
  rewrite run_app, E1 in HE. cbn [wrun] in HE.
  destruct (exec_linv isnew lvl pos _ _ _ _ L1 GO N1) as [w2 [E2 [L2 [_ [N2 [_ [H5 _]]]]]]].
  rewrite E2 in HE. rewrite H1 in H5.
  destruct (above_stays _ _ _ _ _ _ _ r m L2 G2 N2 H5 (or_intror HA)) as [w3 [E3 H3]].
  rewrite HE in E3. injection E3 as <-. exact H3.
Qed.
Print Assumptions c83_root_before_meta_partial.

(** The root split of [ex_ops]: node 21 is written before the meta buffer 1. *)
Example c83_case :
  ex_ops = [OWrite 4; OTransact 2 3 [10] []; OTransact 2 10 [11] []; OTransact 2 3 [12] [4]] ++
           ORoot 1 21 :: [OTransact 21 2 [20] []] /\
  (forall o, In o [OWrite 4; OTransact 2 3 [10] []; OTransact 2 10 [11] []; OTransact 2 3 [12] [4]] ->
             placed_by 21 o = false) /\
  (forall o, In o [OTransact 21 2 [20] []] -> merged_by 21 o = false).
Proof.
  repeat split; intros o H; repeat (destruct H as [<-|H]; [reflexivity|]); destruct H.
Qed.

(** Root 2 has leaves 3 and 4, all from earlier CPs.  Leaf 4 is merged into leaf
    3, which leaves the root with one child; the next removal makes leaf 3 the
    root ([check_collapse_root]: write it, [on_root_changed], free the old root).
    Leaf 3 already waits below the freed root 2, so it is not put below the meta
    buffer 1: the superblock naming leaf 3 as root can reach the disk while leaf
    3 is still the version without the merged entries. *)
Definition col_new (b : nat) : bool := false.
Definition col_lvl (b : nat) : nat := match b with 1 => 9 | 2 => 1 | _ => 0 end%nat.
Definition col_pos (b : nat) : Z := Z.of_nat b.
Definition col_ops : list wop := [OTransact 2 3 [] [4]; OWrite 3; ORoot 1 3; OFree 2].
Definition col_evs : list ev := [EStart 5; EIssue 1; EDone 1; EIssue 3; EDone 3; EDone 2].

Theorem c83_root_before_meta_refuted :
  exists isnew lvl pos l m r w evs s,
    legal isnew lvl pos [] l = true /\ roots_written l /\ In (ORoot m r) l /\
    wrun (wb_init isnew) l = Some w /\ qd_ok evs /\
    frun true (flush_init w (w_list w)) evs = Some s /\ f_fin s = 1%nat /\
    ~ done_first (history s) r m.
Proof.
  destruct (outcome_run true col_new col_ops col_evs
    [Issue 1; Done 1; Issue 3; Done 3; Issue 2; Done 2] 1 true [] [] [])
    as [w [s [E1 [E2 [Hh [Hf _]]]]]]; [vm_compute; reflexivity|].
  exists col_new, col_lvl, col_pos, col_ops, 1%nat, 3%nat, w, col_evs, s. ands; auto.
  - intros m r H. cases_in H.
  - cbn. auto.
  - intros q H. cases_in H.
  - rewrite Hh. intros H.
    specialize (H [] [Done 1; Issue 3; Done 3; Issue 2; Done 2] eq_refl). destruct H.
Qed.
Print Assumptions c83_root_before_meta_refuted.

(** ** C84: a failed root split *)

(** [check_split_root] makes the new root 10 the child of the meta buffer 1 before
    [split_node] allocates the sibling.  When that allocation fails, node 10 is
    freed without having been written and the old root 2, not dirty, is made the
    child of the meta buffer as well.  Neither is on the dirty list, so the meta
    buffer waits for ever: the flush of the CP has nothing left to do and its end
    is not reported. *)
Definition spl_new (b : nat) : bool := Nat.eqb b 10.
Definition spl_lvl (b : nat) : nat := match b with 1 => 9 | 10 => 1 | _ => 0 end%nat.
Definition spl_ops : list wop := [OWrite 5; ORoot 1 10; OFree 10; ORoot 1 2].

Theorem c84_flush_ends_refuted :
  exists isnew lvl pos l w evs s,
    legal isnew lvl pos [] l = true /\ wrun (wb_init isnew) l = Some w /\ qd_ok evs /\
    frun true (flush_init w (w_list w)) evs = Some s /\ f_started s = true /\
    stuck true s /\ f_rest s = [] /\ f_fin s = 0%nat /\
    exists b, In b (written l) /\ ~ In b (issues (history s)).
Proof.
  destruct (outcome_run true spl_new spl_ops [EStart 5; EIssue 5; EDone 5]
    [Issue 5; Done 5] 0 true [] [] [])
    as [w [s [E1 [E2 [Hh [Hf [Hs [Hb [Hy Hr]]]]]]]]]; [vm_compute; reflexivity|].
  exists spl_new, spl_lvl, col_pos, spl_ops, w, [EStart 5; EIssue 5; EDone 5], s. ands; auto.
  - intros q H. cases_in H.
  - intros b. unfold fstep. rewrite Hb, Hy. split; reflexivity.
  - exists 1%nat. split; [vm_compute; tauto|]. rewrite Hh. cbn. intros [H|[]]. discriminate.
Qed.
Print Assumptions c84_flush_ends_refuted.

(** ** C85: several flush fibers *)

(** With two fibers the buffer above the one just written is chosen under the
    lock but set to FLUSHING outside it, so the other fiber, walking the dirty
    list, chooses it again: it is written twice, counted twice, and the end of
    the flush is reported while a dirty buffer (5) has not been written. *)
Definition two_ops : list wop := [OWrite 3; OWrite 4; OTransact 2 3 [] []; OWrite 5].
Definition two_evs : list ev :=
  [EStart 1; EStart 1; EIssue 3; EIssue 4; EDone 3; EDone 4; EIssue 2; EIssue 2; EDone 2; EDone 2].

Theorem c85_several_fibers_refuted :
  exists isnew lvl pos l w evs s,
    legal isnew lvl pos [] l = true /\ roots_written l /\ wrun (wb_init isnew) l = Some w /\
    qd_ok evs /\ frun false (flush_init w (w_list w)) evs = Some s /\
    ~ NoDup (issues (history s)) /\ f_fin s = 1%nat /\
    exists b, In b (written l) /\ ~ In b (issues (history s)).
Proof.
  destruct (outcome_run false col_new two_ops two_evs
    [Issue 3; Issue 4; Done 3; Done 4; Issue 2; Issue 2; Done 2; Done 2] 1 true [5%nat] [] [])
    as [w [s [E1 [E2 [Hh [Hf _]]]]]]; [vm_compute; reflexivity|].
  exists col_new, col_lvl, col_pos, two_ops, w, two_evs, s. ands; auto.
  - intros m r H. cases_in H.
  - intros q H. cases_in H.
  - rewrite Hh. cbn. intros H. inversion H as [|x y H1 H2]; subst.
    inversion H2 as [|x y H3 H4]; subst. inversion H4 as [|x y H5 H6]; subst. apply H5. now left.
  - exists 5%nat. split; [vm_compute; tauto|]. rewrite Hh. cbn. intros H.
    repeat (destruct H as [H|H]; [discriminate|]). destruct H.
Qed.
Print Assumptions c85_several_fibers_refuted.

(** ** C86: the superblock written at the end of a flush *)

Definition sb_ok (fl : bool) (s : sbst) : Prop :=
  sb_busy s = fl /\ In (sb_disk s) (sb_nodes s) /\
  In (sb_mem s) (sb_nodes s ++ sb_todo s ++ (if fl then [] else sb_dirty s)) /\
  (forall r, sb_flush s = Some r -> In r (sb_nodes s ++ sb_todo s)) /\
  (forall r, sb_copy s = Some r -> In r (sb_dirty s)) /\
  (fl = false -> sb_todo s = [] /\ sb_flush s = None).

Lemma in_filter_other : forall (b x : nat) l r, In x (l ++ r) ->
  In x ((b :: l) ++ filter (fun y => negb (Nat.eqb y b)) r).
Proof.
  intros b x l r H. apply in_app_iff in H. apply in_app_iff.
  destruct H as [H|H]; [left; now right|].
  destruct (Nat.eqb x b) eqn:E.
  - apply Nat.eqb_eq in E. left. left. congruence.
  - right. apply filter_In. rewrite E. auto.
Qed.

Lemma sb_run_ok : forall l fl s s', sb_ok fl s -> quiet fl l = true ->
  sbrun s l = Some s' -> In (sb_disk s') (sb_nodes s').
Proof.
  induction l as [|e l IH]; intros fl s s' H HQ HE.
  - injection HE as <-. apply H.
  - cbn [sbrun] in HE. destruct (sbstep s e) as [s1|] eqn:E1; [|discriminate].
    destruct s as [me co fs di dirty todo nodes busy].
    destruct H as [HB [HD [HM [HF [HC H0]]]]].
    cbn [sb_busy sb_disk sb_nodes sb_todo sb_dirty sb_mem sb_flush sb_copy] in *. subst busy.
    destruct e as [b|r| |b| |]; cbn [sbstep quiet] in *.
    + injection E1 as <-. refine (IH _ _ _ _ HQ HE).
      unfold sb_ok. cbn [sb_busy sb_disk sb_nodes sb_todo sb_dirty sb_mem sb_flush sb_copy]. ands; auto.
      * destruct fl; [exact HM|]. rewrite !in_app_iff in *. cbn. tauto.
      * intros r Hr. right. now apply HC.
    + injection E1 as <-. apply andb_true_iff in HQ. destruct HQ as [Hfl HQ]. destruct fl; [discriminate|].
      refine (IH _ _ _ _ HQ HE).
      unfold sb_ok. cbn [sb_busy sb_disk sb_nodes sb_todo sb_dirty sb_mem sb_flush sb_copy]. ands; auto.
      * rewrite !in_app_iff. right. right. now left.
      * intros r' Hr. injection Hr as <-. now left.
    + destruct fl; [discriminate|]. injection E1 as <-. refine (IH _ _ _ _ HQ HE).
      destruct (H0 eq_refl) as [-> ->].
      unfold sb_ok. cbn [sb_busy sb_disk sb_nodes sb_todo sb_dirty sb_mem sb_flush sb_copy]. ands; auto.
      * cbn in HM. now rewrite app_nil_r.
      * intros r Hr. apply in_app_iff. right. now apply HC.
      * discriminate.
      * discriminate.
    + destruct fl; [|discriminate]. cbn [andb] in E1. destruct (mem b todo) eqn:Eb; [|discriminate].
      injection E1 as <-. refine (IH _ _ _ _ HQ HE).
      unfold sb_ok. cbn [sb_busy sb_disk sb_nodes sb_todo sb_dirty sb_mem sb_flush sb_copy]. ands; auto.
      * now right.
      * rewrite app_nil_r in *. now apply in_filter_other.
      * intros r Hr. apply in_filter_other. now apply HF.
      * discriminate.
    + destruct fs as [r|]; [|discriminate]. destruct fl; [|discriminate]. cbn [andb] in E1.
      destruct (mem r todo) eqn:Er; [discriminate|]. injection E1 as <-.
      refine (IH _ _ _ _ HQ HE).
      unfold sb_ok. cbn [sb_busy sb_disk sb_nodes sb_todo sb_dirty sb_mem sb_flush sb_copy]. ands; auto.
      * apply (proj1 (mem_false _ _)) in Er. specialize (HF r eq_refl). apply in_app_iff in HF. tauto.
      * discriminate.
      * discriminate.
    + destruct fl; [|discriminate]. destruct todo; [|discriminate]. destruct fs; [discriminate|].
      injection E1 as <-. refine (IH _ _ _ _ HQ HE).
      cbn in HM. rewrite app_nil_r in HM.
      unfold sb_ok. cbn [sb_busy sb_disk sb_nodes sb_todo sb_dirty sb_mem sb_flush sb_copy]. ands; auto; try discriminate.
      apply in_app_iff. now left.
Qed.

(** At every moment the root named by the superblock on disk is a node on disk,
    as long as no CP changes the root while the CP before it is flushed. *)
Theorem c86_superblock_root_on_disk_partial : forall r l s,
  quiet false l = true -> sbrun (sb_start r) l = Some s -> In (sb_disk s) (sb_nodes s).
Proof.
  intros r l s HQ HE. refine (sb_run_ok l false _ _ _ HQ HE).
  unfold sb_ok, sb_start. cbn [sb_busy sb_disk sb_nodes sb_todo sb_dirty sb_mem sb_flush sb_copy].
  ands; auto; try discriminate; cbn; auto.
Qed.
Print Assumptions c86_superblock_root_on_disk_partial.

Example c86_case :
  quiet false [SWrite 5; SRoot 7; SSwitch; SWrite 8; SNode 7; SMeta; SNode 5; SEnd; SRoot 9; SSwitch] = true /\
  exists s, sbrun (sb_start 1) [SWrite 5; SRoot 7; SSwitch; SWrite 8; SNode 7; SMeta; SNode 5; SEnd; SRoot 9; SSwitch]
            = Some s /\ sb_disk s = 7%nat.
Proof. split; [reflexivity|]. eexists. split; reflexivity. Qed.

(** Without that restriction it is false: CP 1 dirties leaf 5 and is flushed;
    meanwhile CP 2 splits the root, and the superblock written at the end of
    CP 1's flush already names CP 2's root 7, which is not on disk. *)
Theorem c86_superblock_root_on_disk_refuted :
  exists r l s, sbrun (sb_start r) l = Some s /\ ~ In (sb_disk s) (sb_nodes s).
Proof.
  exists 1%nat, [SWrite 5; SSwitch; SRoot 7; SNode 5; SEnd]. eexists. split; [reflexivity|].
  cbn. intros H. repeat (destruct H as [H|H]; [discriminate|]). destruct H.
Qed.
Print Assumptions c86_superblock_root_on_disk_refuted.
