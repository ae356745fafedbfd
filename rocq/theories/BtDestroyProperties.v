(** * Destroying a B-tree: C133, C134. *)
From Coq Require Import ZArith NArith List Bool Lia Permutation.
From Verif Require Import Base BtNodeModel BtNodeSpec BtreeModel BtreeSpec BtreeInv BtreePut BtreeRemove BtreeMerge BtreeProperties BtDestroyModel.
Import ListNotations.

(** ** The nodes of a tree, without the code *)
Definition kids (t : tree) : list tree :=
  match t with
  | Leaf _ _ _ => []
  | Inner _ _ es ed => map snd es ++ match ed with Some e => [e] | None => [] end
  end.
(** A node at or below another. *)
Inductive below : tree -> tree -> Prop :=
| here t : below t t
| under t c s : In c (kids t) -> below s c -> below s t.
(** All leaves are at one depth; the interior nodes have a child. *)
Inductive even : nat -> tree -> Prop :=
| even_leaf id nx es : even 0 (Leaf id nx es)
| even_inner n id nx es ed : kids (Inner id nx es ed) <> [] -> (forall c, In c (kids (Inner id nx es ed)) -> even n c) -> even (S n) (Inner id nx es ed).
Fixpoint nodes (t : tree) : list (bool * N) :=   (* whether it is a leaf, and the id *)
  match t with
  | Leaf id _ _ => [(true, id)]
  | Inner id _ es ed =>
      (false, id) :: (fix go es := match es with (_, t) :: r => nodes t ++ go r | [] => match ed with Some t => nodes t | None => [] end end) es
  end.
Definition ids (t : tree) : list N := map snd (nodes t).

Lemma tree_kids (P : tree -> Prop) : (forall t, (forall c, In c (kids t) -> P c) -> P t) -> forall t, P t.
Proof.
  intros H. fix IH 1. intros t. apply H. destruct t as [id nx es|id nx es ed]; cbn [kids]; [intros c []|].
  assert (A : forall c, In c (map snd es) -> P c).
  { induction es as [|[k t] es IHe]; cbn; [intros c []|]. intros c [<-|Hc]; [apply IH|exact (IHe c Hc)]. }
  intros c Hc. apply in_app_or in Hc as [Hc|Hc]; [exact (A c Hc)|]. destruct ed as [e|]; [|destruct Hc].
  destruct Hc as [<-|[]]. apply IH.
Qed.

Lemma nodes_inner id nx es ed : nodes (Inner id nx es ed) = (false, id) :: flat_map nodes (kids (Inner id nx es ed)).
Proof.
  cbn [nodes kids]. f_equal. induction es as [|[k t] es IH]; cbn; [destruct ed; cbn; now rewrite ?app_nil_r|]. now rewrite IH.
Qed.
Lemma ids_inner id nx es ed : ids (Inner id nx es ed) = id :: flat_map ids (kids (Inner id nx es ed)).
Proof.
  unfold ids at 1. rewrite nodes_inner. cbn [map snd]. f_equal. induction (kids (Inner id nx es ed)) as [|c l IH]; [reflexivity|].
  cbn [flat_map]. rewrite map_app, IH. reflexivity.
Qed.

(** ** Without failures *)
Definition fine (_ : N) : bool := false.
Lemma walk_inner id nx es ed : walk fine (Inner id nx es ed) = (NodeFreed, flat_map (fun c => snd (walk fine c)) (kids (Inner id nx es ed)) ++ [id]).
Proof.
  cbn [walk kids]. induction es as [|[k t] es IH]; cbn [map flat_map snd app].
  - destruct ed as [e|]; [|reflexivity]. cbn [fine flat_map]. destruct (walk fine e) as [st l]. cbn. now rewrite app_nil_r.
  - cbn [fine] in IH |- *. rewrite IH. destruct (walk fine t) as [st l]. cbn [snd]. now rewrite <- app_assoc.
Qed.
Lemma walk_freed t : fst (walk fine t) = NodeFreed.
Proof. destruct t as [id nx es|id nx es ed]; [reflexivity|]. now rewrite walk_inner. Qed.

Lemma walk_perm t : Permutation (snd (walk fine t)) (ids t).
Proof.
  induction t as [t IH] using tree_kids. destruct t as [id nx es|id nx es ed]; [reflexivity|].
  rewrite walk_inner, ids_inner. cbn [snd]. rewrite Permutation_app_comm. cbn [app]. constructor.
  induction (kids (Inner id nx es ed)) as [|c l IHl]; [constructor|]. cbn [flat_map]. apply Permutation_app; [apply IH; now left|].
  apply IHl. intros d Hd. apply IH. now right.
Qed.

(** C133: every node is freed, once, the number is right, and a node goes after all nodes below it. *)
Theorem c133_destroy t :
  exists l, destroy fine t = (Success (length (ids t)), l) /\ Permutation l (ids t) /\ (NoDup (ids t) -> NoDup l).
Proof.
  unfold destroy. cbn [fine]. pose proof (walk_freed t) as F. pose proof (walk_perm t) as P.
  destruct (walk fine t) as [st l]. cbn in F, P. subst st. exists l. rewrite (Permutation_length P). split; [reflexivity|].
  split; [exact P|]. intros Hd. eapply Permutation_NoDup; [apply Permutation_sym; exact P|exact Hd].
Qed.
Print Assumptions c133_destroy.

Lemma ids_below s t : below s t -> incl (ids s) (ids t).
Proof.
  induction 1 as [t|t c s Hc _ IH]; [apply incl_refl|]. destruct t as [id nx es|id nx es ed]; [destruct Hc|].
  rewrite ids_inner. intros x Hx. right. apply in_flat_map. exists c. auto.
Qed.
Lemma id_in t : In (id_of t) (ids t).
Proof. destruct t; [now left|]. rewrite ids_inner. now left. Qed.

Theorem c133_children_first t s c l a b : NoDup (ids t) -> destroy fine t = (Success (length (ids t)), l) -> below s t -> In c (kids s) ->
  l = a ++ id_of s :: b -> incl (ids c) a.
Proof.
  intros Hd E Hb Hc. assert (El : l = snd (walk fine t)).
  { unfold destroy in E. cbn [fine] in E. pose proof (walk_freed t). destruct (walk fine t) as [st l0]. cbn in *. subst st. congruence. }
  clear E. revert l a b El Hd. induction Hb as [t|t c0 s Hc0 Hb IH]; intros l a b El Hd Es.
  - destruct t as [id nx es|id nx es ed]; [destruct Hc|]. rewrite walk_inner in El. cbn [snd] in El. cbn [id_of] in Es.
    assert (Nl : NoDup l).
    { rewrite El. pose proof (walk_perm (Inner id nx es ed)) as P. rewrite walk_inner in P. cbn [snd] in P.
      eapply Permutation_NoDup; [apply Permutation_sym; exact P|exact Hd]. }
    rewrite Es in El, Nl. set (f := flat_map (fun c => snd (walk fine c)) (kids (Inner id nx es ed))) in *.
    assert (Eb : b = [] /\ a = f).
    { destruct b as [|y b] using rev_ind; [apply app_inj_tail in El as [-> _]; auto|]. clear IHb.
      exfalso. rewrite app_comm_cons, app_assoc in El. apply app_inj_tail in El as [El Ey]. subst y.
      apply NoDup_remove_2 in Nl. apply Nl. apply in_or_app. right. apply in_or_app. right. now left. }
    destruct Eb as [_ ->]. intros x Hx. apply in_flat_map. exists c. split; [exact Hc|].
    eapply Permutation_in; [apply Permutation_sym, walk_perm|exact Hx].
  - destruct t as [id nx es|id nx es ed]; [destruct Hc0|]. rewrite walk_inner in El. cbn [snd] in El.
    assert (Nl : NoDup l).
    { rewrite El. pose proof (walk_perm (Inner id nx es ed)) as P. rewrite walk_inner in P. cbn [snd] in P.
      eapply Permutation_NoDup; [apply Permutation_sym; exact P|exact Hd]. }
    pose proof (in_split c0 _ Hc0) as (k1 & k2 & Ek). rewrite Ek, flat_map_app in El. cbn [flat_map] in El.
    set (w := snd (walk fine c0)) in *.
    assert (Hw : In (id_of s) w).
    { eapply Permutation_in; [apply Permutation_sym, walk_perm|]. apply (ids_below s c0 Hb), id_in. }
    apply in_split in Hw as (w1 & w2 & Ew).
    assert (Hd0 : NoDup (ids c0)).
    { rewrite ids_inner, Ek, flat_map_app in Hd. cbn [flat_map] in Hd. apply NoDup_cons_iff in Hd as [_ Hd].
      clear -Hd.
      induction (flat_map ids k1) as [|x l IHl]; [|apply IHl; cbn in Hd; now apply NoDup_cons_iff in Hd].
      cbn in Hd. induction (ids c0) as [|x l IHl]; [constructor|]. cbn in Hd. apply NoDup_cons_iff in Hd as [H1 H2].
      constructor; [|now apply IHl]. intros X. apply H1. apply in_or_app. now left. }
    pose proof (IH Hc w w1 w2 eq_refl Hd0 Ew) as J.
    set (p := flat_map (fun c => snd (walk fine c)) k1) in *. set (q := flat_map (fun c => snd (walk fine c)) k2) in *.
    assert (Ea : a = p ++ w1).
    { rewrite Ew in El. assert (El2 : l = (p ++ w1) ++ id_of s :: (w2 ++ q ++ [id])).
      { rewrite El. rewrite <- !app_assoc. reflexivity. }
      rewrite Es in El2, Nl. clear -El2 Nl. 
      revert El2 Nl. generalize (p ++ w1). intros a'. generalize (w2 ++ q ++ [id]). intros b'. revert a'.
      induction a as [|x a IHa]; intros [|y a'] H Nl; cbn in *.
      - reflexivity.
      - exfalso. injection H as H1 H2. subst y. apply NoDup_cons_iff in Nl as [Nl _]. apply Nl. rewrite H2. apply in_or_app. right. now left.
      - exfalso. injection H as H1 H2. subst x. apply NoDup_cons_iff in Nl as [Nl _]. apply Nl. apply in_or_app. right. now left.
      - injection H as H1 H2. subst y. f_equal. apply IHa; [exact H2|]. now apply NoDup_cons_iff in Nl. }
    rewrite Ea. intros x Hx. apply in_or_app. right. exact (J x Hx).
Qed.
Print Assumptions c133_children_first.

(** ** Counting *)
Definition n_inner (t : tree) : nat := length (filter (fun p => negb (fst p)) (nodes t)).
Definition n_leaf (t : tree) : nat := length (filter fst (nodes t)).

Lemma level_even n t : even n t -> level t = n.
Proof.
  revert n. induction t as [t IH] using tree_kids. intros n H. inversion H as [|m id nx es ed Hne Hk]; subst; [reflexivity|].
  destruct es as [|[k c] es].
  - destruct ed as [e|]; [|now cbn in Hne]. cbn [level]. f_equal. apply IH; [|apply Hk]; cbn; auto.
  - destruct ed as [e|]; cbn [level]; f_equal; (apply IH; [|apply Hk]); cbn; auto; right; apply in_or_app; right; now left.
Qed.
Lemma even0 t : even 0 t -> n_inner t = 0 /\ n_leaf t = 1.
Proof. inversion 1. split; reflexivity. Qed.

Definition sum (f : tree -> nat) (l : list tree) : nat := fold_right (fun c a => f c + a) 0 l.
Lemma n_split id nx es ed : let t := Inner id nx es ed in n_inner t = S (sum n_inner (kids t)) /\ n_leaf t = sum n_leaf (kids t).
Proof.
  cbv zeta. unfold n_inner at 1, n_leaf at 1. rewrite nodes_inner. cbn [filter fst negb length].
  induction (kids (Inner id nx es ed)) as [|c l [IH1 IH2]]; [split; reflexivity|]. cbn [flat_map sum fold_right].
  rewrite !filter_app, !app_length. fold (sum n_inner l) (sum n_leaf l). unfold n_inner at 1, n_leaf at 1. lia.
Qed.
Lemma sum_const f k l : (forall c, In c l -> f c = k) -> sum f l = length l * k.
Proof. induction l as [|c l IH]; intros H; [reflexivity|]. cbn. rewrite (H c) by now left. f_equal. apply IH. intros d Hd. apply H. now right. Qed.

Lemma count_inner id nx es ed : let t := Inner id nx es ed in
  count t = if Nat.eqb (level t) 1 then (1, length (kids t)) else (S (sum (fun c => fst (count c)) (kids t)), sum (fun c => snd (count c)) (kids t)).
Proof.
  cbv zeta. cbn [count]. destruct (Nat.eqb _ 1).
  - f_equal. cbn [kids]. rewrite app_length, map_length. now destruct ed.
  - cbn [kids]. clear. set (go := fix entries (es : list (Z * tree)) : nat * nat := _).
    assert (E : go es = (sum (fun c => fst (count c)) (map snd es ++ match ed with Some e => [e] | None => [] end),
                         sum (fun c => snd (count c)) (map snd es ++ match ed with Some e => [e] | None => [] end))).
    { induction es as [|[k c] es IH].
      - cbn. destruct ed as [e|]; [|reflexivity]. cbn. destruct (count e). cbn. f_equal; lia.
      - cbn [go map snd app sum fold_right]. fold go. rewrite IH. destruct (count c). reflexivity. }
    now rewrite E.
Qed.

(** C133: the count is exact on trees whose leaves are at one depth. *)
Theorem c133_count n t : even n t -> count t = (n_inner t, n_leaf t).
Proof.
  revert n. induction t as [t IH] using tree_kids. intros n H.
  inversion H as [|m id nx es ed Hne Hk]; subst; [reflexivity|]. pose proof (level_even _ _ H) as Lv. rewrite count_inner.
  destruct (n_split id nx es ed) as [-> ->]. destruct (Nat.eqb_spec (level (Inner id nx es ed)) 1) as [E|E].
  - assert (m = 0) by congruence. subst m.
    rewrite (sum_const n_inner 0), (sum_const n_leaf 1); [f_equal; lia| |]; intros c Hc; now apply even0, Hk.
  - f_equal; [f_equal|]; clear -IH Hk; induction (kids (Inner id nx es ed)) as [|c l IHl]; try reflexivity; cbn [sum fold_right];
      rewrite (IH c (or_introl eq_refl) m (Hk c (or_introl eq_refl))); cbn [fst snd]; f_equal; apply IHl; intros d Hd; [apply IH|apply Hk|apply IH|apply Hk]; now right.
Qed.
Print Assumptions c133_count.

Lemma wf_even h lo hi t : wf h lo hi t -> even h t.
Proof.
  revert lo hi t. induction h as [|h IH]; intros lo hi [id nx es|id nx es ed] H; try (destruct H; fail); [constructor|].
  destruct H as [Hn Hc].
  assert (E : kids (Inner id nx es ed) = map snd (slots es ed)).
  { cbn [kids]. unfold slots. rewrite map_app, map_map. cbn [snd]. now destruct ed. }
  constructor; rewrite E.
  - intros X. apply Hn. destruct (slots es ed); [reflexivity|discriminate].
  - intros c Hin. clear -IH Hc Hin. revert lo Hc. induction (slots es ed) as [|[u x] r IHr]; intros lo Hc; [destruct Hin|].
    destruct Hc as (_ & H1 & H2). destruct Hin as [<-|Hin]; [exact (IH _ _ _ H1)|]. exact (IHr Hin _ H2).
Qed.
(** So it is exact on any tree that puts and removes have made. *)
Theorem c133_count_reached c fuel ops nx t xs : cfg_ok c -> run c fuel new_tree ops = Ok ((nx, t), xs) ->
  count t = (n_inner t, n_leaf t).
Proof.
  intros Hok HR. destruct (run_ok _ _ _ new_tree _ _ (fun _ => None) Hok new_tree_ok (fun _ => eq_refl) HR) as [((h & H) & _) _].
  exact (c133_count h t (wf_even _ _ _ _ H)).
Qed.
Print Assumptions c133_count_reached.

(** ** A read that fails: C134 *)
Definition big : tree :=
  Inner 7 0 [(2%Z, Inner 5 0 [(1%Z, Leaf 1 0 [(1%Z, 1%N)]); (2%Z, Leaf 2 0 [(2%Z, 2%N)])] None)]
    (Some (Inner 6 0 [(3%Z, Leaf 3 0 [(3%Z, 3%N)])] (Some (Leaf 4 0 [(4%Z, 4%N)])))).
Definition one (i : N) (x : N) : bool := N.eqb x i.

Definition c134_statement : Prop := forall bad t n l, NoDup (ids t) -> destroy bad t = (Success n, l) -> Permutation l (ids t).
(** Leaf 2 cannot be read: its parent and it stay allocated, their parent is freed and the answer is success. *)
Theorem c134_leak_refuted : ~ c134_statement.
Proof.
  intros H. assert (D : NoDup (ids big)) by (vm_compute; repeat (constructor; [cbn; intuition discriminate|]); constructor).
  pose proof (H (one 2) big 5 [1; 3; 4; 6; 7]%N D eq_refl) as P. apply Permutation_length in P. discriminate P.
Qed.
Print Assumptions c134_leak_refuted.
(** A destroy that fails because a child of the root cannot be read has freed nodes; tried again it frees them again. *)
Definition c134_retry_statement : Prop := forall bad bad' t n l a l',
  NoDup (ids t) -> destroy bad t = (Failed n, l) -> destroy bad' t = (a, l') -> NoDup (l ++ l').
Theorem c134_retry_refuted : ~ c134_retry_statement.
Proof.
  intros H. assert (D : NoDup (ids big)) by (vm_compute; repeat (constructor; [cbn; intuition discriminate|]); constructor).
  pose proof (H (one 6) fine big 3 [1; 2; 5]%N (Success 7) [1; 2; 5; 3; 4; 6; 7]%N D eq_refl eq_refl) as P.
  apply NoDup_cons_iff in P as [P _]. apply P. cbn. auto 10.
Qed.
Print Assumptions c134_retry_refuted.
(** A root that cannot be read is used all the same. *)
Theorem c134_root_refuted : ~ (forall bad t, fst (destroy bad t) <> NullRoot).
Proof. intros H. now apply (H (one 7) big). Qed.
Print Assumptions c134_root_refuted.

Example destroy_example : destroy fine big = (Success 7, [1; 2; 5; 3; 4; 6; 7]%N) /\ NoDup (ids big).
Proof. split; [reflexivity|]. vm_compute; repeat (constructor; [cbn; intuition discriminate|]); constructor. Qed.
Example even_example : even 2 big /\ count big = (3, 4).
Proof. split; [|reflexivity]. repeat (constructor; [discriminate|]; cbn; intros c Hc; intuition subst); constructor. Qed.
