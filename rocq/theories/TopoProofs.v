(** * Proofs about the dependency order. *)
From Coq Require Import Arith NArith ZArith List Lia Bool Permutation ZifyBool ZifyNat ZifyN.
From Verif Require Import Base TopoModel TopoSpec.
Import ListNotations.
Local Open Scope N_scope.

Definition cnt (v : N) (l : list N) : nat := length (filter (N.eqb v) l).

Lemma cnt_app : forall v a b, cnt v (a ++ b) = (cnt v a + cnt v b)%nat.
Proof. intros v a b. unfold cnt. now rewrite filter_app, app_length. Qed.
Lemma cnt_in : forall v l, (0 < cnt v l)%nat <-> In v l.
Proof.
  induction l as [|x r IH]; unfold cnt in *; cbn [filter length In]; [lia|].
  destruct (N.eqb_spec v x) as [->|E]; cbn [length]; [|rewrite IH; split; [auto|intros [X|X]; [congruence|exact X]]].
  split; [auto|lia].
Qed.

(** Edges into [v] from vertices outside [done]. *)
Definition mem (done : list N) (v : N) : bool := existsb (N.eqb v) done.
Lemma mem_in : forall l v, mem l v = true <-> In v l.
Proof.
  intros l v. unfold mem. rewrite existsb_exists. split.
  - intros [x [H1 H2]]. apply N.eqb_eq in H2. now subst x.
  - intros H. exists v. split; [exact H|apply N.eqb_refl].
Qed.
Fixpoint from (g : graph) (done : list N) (v : N) : nat :=
  match g with [] => O | (u, es) :: r => ((if mem done u then 0 else cnt v es) + from r done v)%nat end.

Lemma from_nil : forall g v, Z.of_nat (from g [] v) = degree g v.
Proof.
  intros g v. unfold degree. f_equal. induction g as [|[u es] r IH]; cbn [from mem existsb map snd concat]; [reflexivity|].
  fold (cnt v (es ++ concat (map snd r))). rewrite cnt_app. rewrite IH. reflexivity.
Qed.

Lemma from_pos : forall g done v, (0 < from g done v)%nat <-> exists u es, In (u, es) g /\ ~ In u done /\ In v es.
Proof.
  induction g as [|[u es] r IH]; intros done v; cbn [from In].
  - split; [lia|]. intros [? [? [[] _]]].
  - split.
    + intros H. destruct (mem done u) eqn:E.
      * destruct (proj1 (IH done v)) as [u' [es' [A B]]]; [lia|]. exists u', es'. tauto.
      * destruct (Nat.eq_dec (cnt v es) 0) as [Z|Z].
        -- destruct (proj1 (IH done v)) as [u' [es' [A B]]]; [lia|]. exists u', es'. tauto.
        -- exists u, es. split; [auto|]. split; [|apply cnt_in; lia]. intros X. apply mem_in in X. congruence.
    + intros [u' [es' [[A|A] [B C]]]].
      * injection A as -> ->. apply cnt_in in C. destruct (mem done u') eqn:E; [apply mem_in in E; contradiction|lia].
      * assert (H : (0 < from r done v)%nat) by (apply IH; exists u', es'; auto). lia.
Qed.

Lemma edges_of_notin : forall g v, ~ In v (map fst g) -> edges_of g v = [].
Proof.
  induction g as [|[u es] r IH]; intros v H; cbn [edges_of map fst In] in *; [reflexivity|].
  destruct (N.eqb_spec u v) as [->|E]; [exfalso; auto|]. apply IH. auto.
Qed.

Lemma edges_of_in : forall g u es, NoDup (map fst g) -> In (u, es) g -> edges_of g u = es.
Proof.
  induction g as [|[w fs] r IH]; intros u es Hd H; [contradiction|]. cbn [edges_of map fst] in *.
  inversion Hd as [|? ? N1 N2]; subst. destruct H as [H|H].
  - injection H as -> ->. now rewrite N.eqb_refl.
  - destruct (N.eqb_spec w u) as [->|E]; [|auto]. exfalso. apply N1. now apply in_map with (f := fst) in H.
Qed.

Lemma mem_app : forall a b u, mem (a ++ b) u = mem a u || mem b u.
Proof. intros. unfold mem. apply existsb_app. Qed.

(** Finishing vertex [u]. *)
Lemma from_done : forall g done u v, NoDup (map fst g) -> ~ In u done ->
  from g done v = (cnt v (edges_of g u) + from g (done ++ [u]) v)%nat.
Proof.
  induction g as [|[w es] r IH]; intros done u v Hd Hn; cbn [from edges_of]; [reflexivity|].
  cbn [map fst] in Hd. inversion Hd as [|? ? N1 N2]; subst. rewrite mem_app. cbn [mem existsb]. rewrite orb_false_r.
  destruct (N.eqb_spec w u) as [->|E].
  - rewrite orb_true_r. destruct (mem done u) eqn:X; [apply mem_in in X; contradiction|].
    rewrite (IH done u v N2 Hn). rewrite (edges_of_notin r u N1). cbn [cnt filter length]. lia.
  - rewrite orb_false_r. rewrite (IH done u v N2 Hn). lia.
Qed.

(** ** One vertex *)
Lemma relax_ok : forall es base deg q l,
  (forall v, deg v = Z.of_nat (base v + cnt v es)) -> NoDup (l ++ q) ->
  (forall v, cnt v es <> O -> ~ In v (l ++ q)) ->
  exists q', fst (relax deg q es) = (fst (relax deg q es)) /\ snd (relax deg q es) = q ++ q' /\
    (forall v, fst (relax deg q es) v = Z.of_nat (base v)) /\ NoDup (l ++ q ++ q') /\
    (forall v, In v q' <-> In v es /\ base v = O).
Proof.
  induction es as [|e r IH]; intros base deg q l Hd Hn Hc; cbn [relax].
  - exists []. rewrite app_nil_r. cbn [fst snd]. repeat split; auto; try contradiction; try tauto.
    intros v. rewrite Hd. unfold cnt. cbn [filter length]. now rewrite Nat.add_0_r.
  - cbn zeta. rewrite N.eqb_refl.
    set (deg' := fun v => if v =? e then (deg e - 1)%Z else deg v).
    assert (Hd' : forall v, deg' v = Z.of_nat (base v + cnt v r)).
    { intros v. unfold deg'. assert (H := Hd v). assert (He := Hd e). unfold cnt in *. cbn [filter length] in *.
      rewrite N.eqb_refl in He. destruct (N.eqb_spec v e) as [E|E]; [rewrite E in *|]; cbn [length] in *; lia. }
    assert (Ne : ~ In e (l ++ q)).
    { apply Hc. unfold cnt. cbn [filter]. rewrite N.eqb_refl. cbn [length]. lia. }
    destruct (Z.eqb_spec (deg e - 1) 0) as [Ez|Ez].
    + assert (X := Hd e). unfold cnt in X. cbn [filter] in X. rewrite N.eqb_refl in X. cbn [length] in X.
      assert (B0 : base e = O /\ cnt e r = O) by (unfold cnt; lia). destruct B0 as [B0 B1].
      destruct (IH base deg' (q ++ [e]) l Hd') as [q' [_ [A2 [A3 [A4 A5]]]]].
      { rewrite app_assoc. apply (Permutation_NoDup (Permutation_cons_append _ _)). now constructor. }
      { intros v Hv. rewrite app_assoc. intros Y. apply in_app_or in Y. destruct Y as [Y|[Y|[]]].
        - revert Y. apply Hc. unfold cnt in *. cbn [filter]. destruct (v =? e); cbn [length]; lia.
        - subst v. contradiction. }
      exists (e :: q'). rewrite <- app_assoc in A2. cbn [app] in A2. ands; auto.
      * rewrite <- app_assoc in A4. exact A4.
      * intros v. cbn [In]. rewrite A5. split; [intros [<-|Hv]; tauto|]. intros [[<-|Hv] Hb]; tauto.
    + destruct (IH base deg' q l Hd' Hn) as [q' [_ [A2 [A3 [A4 A5]]]]].
      { intros v Hv. apply Hc. unfold cnt in *. cbn [filter]. destruct (v =? e); cbn [length]; lia. }
      exists q'. ands; auto. intros v. cbn [In]. rewrite A5. split; [tauto|]. intros [[<-|Hv] Hb]; [|tauto]. split; [|exact Hb].
      apply cnt_in. assert (X := Hd e). unfold cnt in *. cbn [filter] in X. rewrite N.eqb_refl in X. cbn [length] in X. lia.
Qed.

(** ** The loop *)
Definition ordered (g : graph) (l : list N) : Prop := forall u v, edge g u v -> In v l -> before l u v.

Record linv (g : graph) (names : list N) (deg : N -> Z) (q out : list N) : Prop := {
  li_nodup : NoDup (out ++ q);
  li_deg : forall v, deg v = Z.of_nat (from g out v);
  li_in : forall v, In v (out ++ q) <-> In v names /\ from g out v = O;
  li_ord : ordered g out }.

Lemma names_edges : forall g names u v, hash_walk g names -> In v (edges_of g u) -> NoDup (map fst g) -> In v names.
Proof.
  intros g names u v [_ H] Hv Hd. apply H. right. exists u.
  destruct (in_dec N.eq_dec u (map fst g)) as [I|I].
  - apply in_map_iff in I. destruct I as [[w es] [E I]]. cbn [fst] in E. subst w. exists es.
    rewrite (edges_of_in g u es Hd I) in Hv. auto.
  - rewrite (edges_of_notin g u I) in Hv. contradiction.
Qed.

Lemma before_app : forall l1 l2 a b, before l1 a b -> before (l1 ++ l2) a b.
Proof. intros l1 l2 a b [x [y [-> H]]]. exists x, (y ++ l2). split; [now rewrite <- app_assoc|exact H]. Qed.

Lemma step_inv : forall g names deg v q out, NoDup (map fst g) -> hash_walk g names -> linv g names deg (v :: q) out ->
  linv g names (fst (relax deg q (edges_of g v))) (snd (relax deg q (edges_of g v))) (out ++ [v]).
Proof.
  intros g names deg v q out Hk Hw [H1 H2 H3 H4].
  assert (Nv : ~ In v out).
  { intros X. apply NoDup_remove_2 in H1. apply H1. apply in_or_app. now left. }
  assert (Hv : In v names /\ from g out v = O) by (apply H3; apply in_or_app; right; now left).
  destruct (relax_ok (edges_of g v) (fun w => from g (out ++ [v]) w) deg q (out ++ [v])) as [q' [_ [A2 [A3 [A4 A5]]]]].
  - intros w. rewrite H2. rewrite (from_done g out v w Hk Nv). f_equal. lia.
  - rewrite <- app_assoc. exact H1.
  - intros w Hc X. rewrite <- app_assoc in X. apply H3 in X. rewrite (from_done g out v w Hk Nv) in X. lia.
  - rewrite A2. split.
    + exact A4.
    + exact A3.
    + intros w. rewrite !in_app_iff. assert (Q := H3 w). rewrite in_app_iff in Q. cbn [In] in *.
      rewrite (from_done g out v w Hk Nv) in Q. specialize (A5 w). split.
      * intros X. destruct (in_dec N.eq_dec w q') as [I|I].
        -- apply A5 in I. destruct I as [I1 I2]. split; [|exact I2]. eapply names_edges; eauto.
        -- assert (Y : In w out \/ v = w \/ In w q) by tauto. apply Q in Y. destruct Y as [Y1 Y2]. split; [exact Y1|lia].
      * intros [X1 X2]. destruct (Nat.eq_dec (cnt w (edges_of g v)) 0) as [Z|Z].
        -- assert (Y : In w out \/ v = w \/ In w q) by (apply Q; split; [exact X1|lia]). tauto.
        -- right. right. apply A5. split; [apply cnt_in; lia|exact X2].
    + intros a b He Hb. apply in_app_or in Hb. destruct Hb as [Hb|[<-|[]]].
      * apply before_app. now apply H4.
      * exists out, []. split; [reflexivity|].
        destruct (in_dec N.eq_dec a out) as [I|I]; [exact I|]. exfalso.
        destruct He as [es [E1 E2]].
        assert (X : (0 < from g out v)%nat) by (apply from_pos; exists a, es; auto). lia.
Qed.

Lemma loop_ok : forall g names, NoDup (map fst g) -> hash_walk g names -> forall fuel deg q out,
  linv g names deg q out -> (length names <= fuel + length out)%nat ->
  exists out' deg', sort_loop g fuel deg q out = Some out' /\ linv g names deg' [] out'.
Proof.
  intros g names Hk Hw. induction fuel as [|f IH]; intros deg q out Hi Hf.
  - destruct q as [|v q]; cbn [sort_loop]; [eauto|]. exfalso.
    assert (L : (length (out ++ v :: q) <= length names)%nat).
    { apply NoDup_incl_length; [apply Hi|]. intros x Hx. now apply (li_in _ _ _ _ _ Hi) in Hx. }
    rewrite app_length in L. cbn [length] in L. lia.
  - destruct q as [|v q]; cbn [sort_loop]; [eauto|].
    assert (S := step_inv g names deg v q out Hk Hw Hi).
    destruct (relax deg q (edges_of g v)) as [deg' q2]. cbn [fst snd] in S. apply IH; [exact S|].
    rewrite app_length. cbn [length]. lia.
Qed.

Lemma init_inv : forall g names, hash_walk g names ->
  linv g names (degree g) (filter (fun v => (degree g v =? 0)%Z) names) [].
Proof.
  intros g names [H1 H2]. split; cbn [app].
  - now apply NoDup_filter.
  - intros v. now rewrite from_nil.
  - intros v. rewrite filter_In. rewrite <- from_nil. split; intros [A B]; split; auto; lia.
  - intros u v _ [].
Qed.

(** ** Cycles *)
Lemma path_app : forall g u v w, path g u v -> path g v w -> path g u w.
Proof. intros g u v w H. induction H as [u v E|u v x E P IH]; intros Q; [eapply path_more; eauto|]. eapply path_more; [exact E|auto]. Qed.

Lemma before_trans_self : forall l a, NoDup l -> ~ before l a a.
Proof. intros l a Hd [l1 [l2 [-> H]]]. apply NoDup_remove_2 in Hd. apply Hd. apply in_or_app. now left. Qed.

Lemma before_trans : forall l a b c, NoDup l -> before l a b -> before l b c -> before l a c.
Proof.
  intros l a b c Hd [x1 [x2 [E1 H1]]] [y1 [y2 [E2 H2]]]. exists y1, y2. split; [exact E2|].
  apply in_split in H2. destruct H2 as [z1 [z2 ->]]. 
  assert (X : x1 = z1).
  { rewrite E1 in E2. rewrite <- app_assoc in E2. cbn [app] in E2. rewrite E1 in Hd. clear - E2 Hd.
    revert z1 E2. induction x1 as [|p x1 IH]; intros z1 E2.
    - destruct z1 as [|q z1]; [reflexivity|]. cbn [app] in *. injection E2 as -> E2. exfalso.
      inversion Hd as [|? ? N1 _]; subst. apply N1. apply in_or_app. right. now left.
    - destruct z1 as [|q z1]; cbn [app] in *.
      + injection E2 as -> E2. exfalso. inversion Hd as [|? ? N1 _]; subst. apply N1. apply in_or_app. right. now left.
      + injection E2 as -> E2. f_equal. inversion Hd; subst. auto. }
  subst z1. apply in_or_app. now left.
Qed.

Lemma ordered_acyclic : forall g l, NoDup l -> ordered g l -> (forall v, name g v -> In v l) -> ~ cyclic g.
Proof.
  intros g l Hd Ho Hn [v P].
  assert (Q : forall a b, path g a b -> before l a b).
  { intros a b H. induction H as [a b E|a b c E P' IH].
    - apply Ho; [exact E|]. apply Hn. right. eauto.
    - eapply before_trans; eauto. apply Ho; [exact E|]. apply Hn. right. eauto. }
  apply (before_trans_self l v Hd). auto.
Qed.

(** Backward walk inside a set where everything has a predecessor. *)
Fixpoint walk (g : graph) (l : list N) : Prop :=
  match l with a :: ((b :: _) as r) => edge g a b /\ walk g r | _ => True end.

Lemma walk_path : forall g l1 a l2 b l3, walk g (l1 ++ a :: l2 ++ b :: l3) -> path g a b.
Proof.
  induction l1 as [|x l1 IH]; intros a l2 b l3 H.
  - cbn [app] in H. revert a H. induction l2 as [|y l2 IH]; intros a H; cbn [app walk] in H; destruct H as [E W].
    + now apply path_one.
    + eapply path_more; [exact E|]. now apply IH.
  - apply (IH a l2 b l3). cbn [app walk] in H. destruct l1 as [|z l1]; cbn [app] in *; tauto.
Qed.

Lemma dup_split : forall l : list N, ~ NoDup l -> exists l1 a l2 l3, l = l1 ++ a :: l2 ++ a :: l3.
Proof.
  induction l as [|x r IH]; intros H; [exfalso; apply H; constructor|].
  destruct (in_dec N.eq_dec x r) as [I|I].
  - apply in_split in I. destruct I as [l2 [l3 ->]]. exists [], x, l2, l3. reflexivity.
  - destruct IH as [l1 [a [l2 [l3 ->]]]].
    + intros N. apply H. now constructor.
    + exists (x :: l1), a, l2, l3. reflexivity.
Qed.

Lemma all_have_pred_cyclic : forall g R v0, In v0 R -> (forall v, In v R -> exists u, In u R /\ edge g u v) -> cyclic g.
Proof.
  intros g R v0 H0 H.
  assert (W : forall n, exists l, length l = S n /\ incl l R /\ walk g l).
  { induction n as [|n [l [L1 [L2 L3]]]].
    - exists [v0]. cbn [length walk]. repeat split. intros x [<-|[]]. exact H0.
    - destruct l as [|a l]; [discriminate|]. destruct (H a (L2 a (or_introl eq_refl))) as [u [U1 U2]].
      exists (u :: a :: l). cbn [length walk] in *. repeat split; auto. intros x [<-|Hx]; auto. }
  destruct (W (length R)) as [l [L1 [L2 L3]]].
  destruct (dup_split l) as [l1 [a [l2 [l3 ->]]]].
  - intros N. apply (NoDup_incl_length N) in L2. lia.
  - exists a. eapply walk_path; eauto.
Qed.

Lemma filter_split : forall A (f : A -> bool) l, length l = (length (filter f l) + length (filter (fun x => negb (f x)) l))%nat.
Proof. induction l as [|x r IH]; cbn [filter length]; [reflexivity|]. destruct (f x); cbn [negb length]; lia. Qed.

Lemma is_key_in : forall g v, is_key g v = true <-> In v (map fst g).
Proof.
  intros g v. unfold is_key. rewrite existsb_exists, in_map_iff. split.
  - intros [p [H1 H2]]. exists p. split; [lia|exact H1].
  - intros [p [H1 H2]]. exists p. split; [exact H2|lia].
Qed.

(** ** Main result *)
Theorem topo_ok : forall g order, NoDup (map fst g) -> hash_walk g order ->
  exists out has_cycle, topological_sort g order = Some (out, has_cycle) /\
    NoDup out /\ (forall v, In v out -> name g v) /\ ordered g out /\
    (has_cycle = true <-> cyclic g) /\ (has_cycle = false -> forall v, name g v -> In v out).
Proof.
  intros g order Hk Hw.
  destruct (loop_ok g order Hk Hw (length order) (degree g) (filter (fun v => (degree g v =? 0)%Z) order) [] (init_inv g order Hw))
    as [out [deg' [E I]]]; [cbn [length]; lia|].
  destruct I as [I1 I2 I3 I4]. rewrite app_nil_r in *.
  unfold topological_sort. rewrite E.
  assert (Sz : length (filter (is_key g) out) = length g <-> forall k, In k (map fst g) -> In k out).
  { split.
    - intros L k Hkk.
      assert (Q : incl (map fst g) (filter (is_key g) out)).
      { apply NoDup_length_incl; [now apply NoDup_filter|rewrite map_length; lia|].
        intros x Hx. apply filter_In in Hx. now apply is_key_in. }
      apply Q in Hkk. now apply filter_In in Hkk.
    - intros H. rewrite <- (map_length fst g). apply Nat.le_antisymm.
      + apply NoDup_incl_length; [now apply NoDup_filter|]. intros x Hx. apply filter_In in Hx. now apply is_key_in.
      + apply NoDup_incl_length; [exact Hk|]. intros x Hx. apply filter_In. split; [auto|now apply is_key_in]. }
  assert (Split := filter_split _ (is_key g) out).
  assert (All : (forall k, In k (map fst g) -> In k out) -> forall v, name g v -> In v out).
  { intros H v Hn. apply I3. split; [now apply Hw|].
    destruct (Nat.eq_dec (from g out v) 0) as [Z|Z]; [exact Z|]. exfalso.
    destruct (proj1 (from_pos g out v)) as [u [es [A [B C]]]]; [lia|]. apply B. apply H.
    now apply in_map with (f := fst) in A. }
  exists out. eexists. split; [reflexivity|]. split; [exact I1|]. split; [intros v Hv; apply Hw; now apply I3|].
  split; [exact I4|].
  destruct (Nat.eqb_spec (length out) (length g + length (filter (fun v => negb (is_key g v)) out))) as [Eq|Ne]; cbn [negb].
  - assert (K : forall k, In k (map fst g) -> In k out) by (apply Sz; lia).
    split; [|auto]. split; [discriminate|]. intros Hc. exfalso. revert Hc. eapply ordered_acyclic; eauto.
  - split; [|discriminate]. split; [intros _|reflexivity].
    assert (NK : ~ forall k, In k (map fst g) -> In k out) by (intros K; apply Sz in K; lia).
    set (R := filter (fun v => negb (mem out v)) order).
    assert (Ex : exists v0, In v0 R).
    { destruct R as [|v0 R0] eqn:ER; [|exists v0; now left]. exfalso. apply NK. intros k Hkk.
      destruct (in_dec N.eq_dec k out) as [I|I]; [exact I|]. exfalso.
      assert (X : In k R).
      { apply filter_In. split; [apply Hw; now left|]. apply negb_true_iff. apply not_true_is_false. intros M. apply mem_in in M. contradiction. }
      rewrite ER in X. contradiction. }
    destruct Ex as [v0 Hv0]. apply (all_have_pred_cyclic g R v0 Hv0).
    intros v Hv. apply filter_In in Hv. destruct Hv as [V1 V2].
    assert (Vo : ~ In v out) by (intros X; apply mem_in in X; rewrite X in V2; discriminate).
    assert (F : (0 < from g out v)%nat).
    { destruct (Nat.eq_dec (from g out v) 0) as [Z|Z]; [|lia]. exfalso. apply Vo. apply I3. auto. }
    apply from_pos in F. destruct F as [u [es [A [B C]]]]. exists u. split.
    + apply filter_In. split; [apply Hw; left; now apply in_map with (f := fst) in A|].
      apply negb_true_iff. apply not_true_is_false. intros M. apply mem_in in M. contradiction.
    + exists es. auto.
Qed.

(** ** Registration *)
Lemma touch_keys : forall l x b t, In t (map fst (touch l x b)) <-> In t (map fst l) \/ t = x.
Proof.
  induction l as [|[u h] r IH]; intros x b t; cbn [touch map fst In].
  - split; [intros [->|[]]; auto|intros [[]| ->]; auto].
  - destruct (N.eqb_spec u x) as [->|E]; cbn [map fst In].
    + split; [tauto|]. intros [[H|H]|H]; auto.
    + rewrite IH. tauto.
Qed.
Lemma touch_nodup : forall l x b, NoDup (map fst l) -> NoDup (map fst (touch l x b)).
Proof.
  induction l as [|[u h] r IH]; intros x b H; cbn [touch map fst] in *; [repeat constructor; auto|].
  inversion H as [|? ? N1 N2]; subst. destruct (N.eqb_spec u x) as [->|E]; cbn [map fst]; constructor; auto.
  rewrite touch_keys. intros [X|X]; [contradiction|congruence].
Qed.
Lemma touch_true : forall l x b t, NoDup (map fst l) ->
  In (t, true) (touch l x b) <-> In (t, true) l \/ (t = x /\ b = true).
Proof.
  induction l as [|[u h] r IH]; intros x b t H; cbn [touch map fst In] in *.
  - split; [intros [X|[]]; injection X as -> ->; auto|intros [[]|[-> ->]]; auto].
  - inversion H as [|? ? N1 N2]; subst. destruct (N.eqb_spec u x) as [->|E]; cbn [In].
    + split.
      * intros [X|X]; [|auto]. injection X as -> X. apply orb_true_iff in X. destruct X as [->| ->]; auto.
      * intros [[X|X]|[-> ->]]; auto; [injection X as -> ->; auto|]. left. now rewrite orb_true_r.
    + rewrite IH by exact N2. tauto.
Qed.
Lemma touches : forall ds l, NoDup (map fst l) ->
  NoDup (map fst (fold_left (fun l x => touch l x true) ds l)) /\
  (forall t, In t (map fst (fold_left (fun l x => touch l x true) ds l)) <-> In t (map fst l) \/ In t ds) /\
  (forall t, In (t, true) (fold_left (fun l x => touch l x true) ds l) <-> In (t, true) l \/ In t ds).
Proof.
  induction ds as [|d r IH]; intros l H; cbn [fold_left In].
  - ands; auto; intros t; tauto.
  - destruct (IH (touch l d true) (touch_nodup _ _ _ H)) as [A [B C]]. ands; auto.
    + intros t. rewrite B, touch_keys. split; [intros [[X|X]|X]; auto|intros [X|[X|X]]; auto].
    + intros t. rewrite C, (touch_true _ _ _ _ H). split; [intros [[X|[X _]]|X]; auto|intros [X|[X|X]]; auto].
Qed.

Lemma add_edge_keys : forall g x t v, In v (map fst (add_edge g x t)) <-> In v (map fst g) \/ v = x.
Proof.
  induction g as [|[u es] r IH]; intros x t v; cbn [add_edge map fst In].
  - split; [intros [->|[]]; auto|intros [[]| ->]; auto].
  - destruct (N.eqb_spec u x) as [->|E]; cbn [map fst In].
    + split; [tauto|]. intros [[H|H]|H]; auto.
    + rewrite IH. tauto.
Qed.
Lemma add_edge_nodup : forall g x t, NoDup (map fst g) -> NoDup (map fst (add_edge g x t)).
Proof.
  induction g as [|[u es] r IH]; intros x t H; cbn [add_edge map fst] in *; [repeat constructor; auto|].
  inversion H as [|? ? N1 N2]; subst. destruct (N.eqb_spec u x) as [->|E]; cbn [map fst]; constructor; auto.
  rewrite add_edge_keys. intros [X|X]; [contradiction|congruence].
Qed.
Lemma edge_cons : forall u es r a b, edge ((u, es) :: r) a b <-> (a = u /\ In b es) \/ edge r a b.
Proof.
  intros u es r a b. unfold edge. cbn [In]. split.
  - intros [fs [[X|X] Y]]; [injection X as -> ->; auto|right; eauto].
  - intros [[-> X]|[fs [X Y]]]; [exists es; auto|exists fs; auto].
Qed.
Lemma add_edge_edge : forall g x t a b, edge (add_edge g x t) a b <-> edge g a b \/ (a = x /\ b = t).
Proof.
  induction g as [|[u es] r IH]; intros x t a b; cbn [add_edge].
  - rewrite edge_cons. cbn [In]. split.
    + intros [[X [Y|[]]]|[? [[] _]]]; auto.
    + intros [[? [[] _]]|[X Y]]; auto.
  - destruct (N.eqb_spec u x) as [->|E]; rewrite !edge_cons.
    + rewrite in_app_iff. cbn [In]. split.
      * intros [[X [Y|[Y|[]]]]|X]; auto.
      * intros [[[X Y]|X]|[X Y]]; auto.
    + rewrite IH. tauto.
Qed.
Lemma add_edges : forall ds g t, NoDup (map fst g) ->
  NoDup (map fst (fold_left (fun g x => add_edge g x t) ds g)) /\
  (forall a b, edge (fold_left (fun g x => add_edge g x t) ds g) a b <-> edge g a b \/ (In a ds /\ b = t)).
Proof.
  induction ds as [|d r IH]; intros g t H; cbn [fold_left In].
  - split; [exact H|]. intros a b. tauto.
  - destruct (IH (add_edge g d t) t (add_edge_nodup _ _ _ H)) as [A B]. split; [exact A|].
    intros a b. rewrite B, add_edge_edge. split; [intros [[X|[X Y]]|[X Y]]; auto|intros [X|[[X|X] Y]]; auto].
Qed.

Record rinv (decl : list (N * option (list N))) (s : regs) : Prop := {
  ri_keys : NoDup (map fst (r_graph s));
  ri_edges : forall a b, edge (r_graph s) a b <-> depends decl b a;
  ri_ends : forall k, In k (map fst (r_graph s)) -> exists b, edge (r_graph s) k b;
  ri_subs : NoDup (map fst (r_subs s));
  ri_all : forall t, In t (map fst (r_subs s)) <-> mentioned decl t;
  ri_deps : forall t, In (t, true) (r_subs s) <-> (exists ds, In (t, Some ds) decl) \/ exists u, depends decl u t }.

Lemma ends_fold : forall t ds g, (forall k, In k (map fst g) -> exists b, edge g k b) ->
  forall k, In k (map fst (fold_left (fun g x => add_edge g x t) ds g)) -> exists b, edge (fold_left (fun g x => add_edge g x t) ds g) k b.
Proof.
  induction ds as [|d r IH]; intros g H k Hk; cbn [fold_left] in *; [auto|]. apply IH; [|exact Hk].
  intros k' Hk'. apply add_edge_keys in Hk'. destruct Hk' as [X| ->].
  - destruct (H k' X) as [b B]. exists b. apply add_edge_edge. auto.
  - exists t. apply add_edge_edge. auto.
Qed.

Lemma depends_app : forall d t ds a b, depends (d ++ [(t, ds)]) b a <-> depends d b a \/ (b = t /\ exists l, ds = Some l /\ In a l).
Proof.
  intros d t ds a b. unfold depends. split.
  - intros [l [H1 H2]]. apply in_app_or in H1. destruct H1 as [H1|[H1|[]]]; [left; eauto|].
    injection H1 as -> ->. right. eauto.
  - intros [[l [H1 H2]]|[-> [l [-> H]]]]; exists l; split; auto; apply in_or_app; cbn [In]; auto.
Qed.

Lemma register_ok : forall decl s t ds, rinv decl s -> rinv (decl ++ [(t, ds)]) (register s t ds).
Proof.
  intros decl s t ds [H1 H2 H3 H4 H5 H6].
  assert (M : forall v, mentioned (decl ++ [(t, ds)]) v <-> mentioned decl v \/ v = t \/ exists l, ds = Some l /\ In v l).
  { intros v. unfold mentioned. split.
    - intros [[d Hd]|[u Hu]].
      + apply in_app_or in Hd. destruct Hd as [Hd|[Hd|[]]]; [eauto|]. injection Hd as -> ->. auto.
      + apply depends_app in Hu. destruct Hu as [Hu|[_ Hu]]; [eauto|auto].
    - intros [[[d Hd]|[u Hu]]|[->|Hl]].
      + left. exists d. apply in_or_app. auto.
      + right. exists u. apply depends_app. auto.
      + left. exists ds. apply in_or_app. cbn [In]. auto.
      + right. exists t. apply depends_app. auto. }
  unfold register. destruct ds as [ds|].
  - assert (T1 := touch_nodup (r_subs s) t false H4). assert (T2 := touch_nodup _ t true T1).
    destruct (touches ds (touch (touch (r_subs s) t false) t true) T2) as [A [B C]].
    destruct (add_edges ds (r_graph s) t H1) as [D E].
    split; cbn [r_graph r_subs]; auto.
    + intros a b. rewrite E, H2, depends_app. split.
      * intros [X|[X Y]]; [auto|]. right. split; [exact Y|]. eauto.
      * intros [X|[X [l [Y Z]]]]; [auto|]. injection Y as <-. auto.
    + now apply ends_fold.
    + intros v. rewrite B, !touch_keys, H5, M. split.
      * intros [[[X|X]|X]|X]; auto. right. right. eauto.
      * intros [X|[X|[l [Y Z]]]]; auto. injection Y as <-. auto.
    + intros v. rewrite C, (touch_true _ _ _ _ T1), (touch_true _ _ _ _ H4), H6. split.
      * intros [[[[[l X]|[u X]]|[_ X]]|[-> _]]|X]; try discriminate.
        -- left. exists l. apply in_or_app. auto.
        -- right. exists u. apply depends_app. auto.
        -- left. exists ds. apply in_or_app. cbn [In]. auto.
        -- right. exists t. apply depends_app. right. split; [reflexivity|]. eauto.
      * intros [[l X]|[u X]].
        -- apply in_app_or in X. destruct X as [X|[X|[]]]; [left; left; left; eauto|]. injection X as -> ->. auto.
        -- apply depends_app in X. destruct X as [X|[_ [l [Y Z]]]]; [left; left; left; eauto|]. injection Y as <-. auto.
  - split; cbn [r_graph r_subs]; auto.
    + intros a b. rewrite H2, depends_app. split; [auto|]. intros [X|[_ [l [Y _]]]]; [auto|discriminate].
    + now apply touch_nodup.
    + intros v. rewrite touch_keys, H5, M. split; [tauto|]. intros [X|[X|[l [Y _]]]]; auto. discriminate.
    + intros v. rewrite (touch_true _ _ _ _ H4), H6. split.
      * intros [[[l X]|[u X]]|[_ X]]; [| |discriminate].
        -- left. exists l. apply in_or_app. auto.
        -- right. exists u. apply depends_app. auto.
      * intros [[l X]|[u X]].
        -- apply in_app_or in X. destruct X as [X|[X|[]]]; [eauto|discriminate].
        -- apply depends_app in X. destruct X as [X|[_ [l [Y _]]]]; [eauto|discriminate].
Qed.

Lemma declared_ok : forall decl, rinv decl (declared decl (Regs [] [])).
Proof.
  assert (G : forall l decl s, rinv decl s -> rinv (decl ++ l) (declared l s)).
  { induction l as [|[t ds] r IH]; intros decl s H; unfold declared in *; cbn [fold_left fst snd].
    - now rewrite app_nil_r.
    - replace (decl ++ (t, ds) :: r) with ((decl ++ [(t, ds)]) ++ r) by (now rewrite <- app_assoc).
      apply IH. now apply register_ok. }
  intros decl. apply (G decl []). split; cbn [r_graph r_subs map].
  - constructor.
  - intros a b. split; [intros [? [[] _]]|intros [? [[] _]]].
  - intros k [].
  - constructor.
  - intros t. split; [intros []|intros [[? []]|[? [? [[] _]]]]].
  - intros t. split; [intros []|intros [[? []]|[? [? [[] _]]]]].
Qed.

Lemma needs_path : forall decl g, (forall a b, edge g a b <-> depends decl b a) -> forall t x, needs decl t x <-> path g x t.
Proof.
  intros decl g He t x. split.
  - intros H. induction H as [t x H|t x y H IH D].
    + apply path_one. now apply He.
    + eapply path_more; [|exact IH]. now apply He.
  - intros H. induction H as [u v E|u v w E P IH].
    + apply needs_one. now apply He.
    + eapply needs_more; [exact IH|]. now apply He.
Qed.

Lemma NoDup_app : forall A (a b : list A), NoDup a -> NoDup b -> (forall x, In x a -> ~ In x b) -> NoDup (a ++ b).
Proof.
  induction a as [|x a IH]; intros b Ha Hb H; cbn [app]; [exact Hb|]. inversion Ha as [|? ? N1 N2]; subst. constructor.
  - intros X. apply in_app_or in X. destruct X as [X|X]; [contradiction|]. apply (H x); [now left|exact X].
  - apply IH; auto. intros y Hy. apply H. now right.
Qed.

Theorem recover_ok : forall decl order walk, let s := declared decl (Regs [] []) in
  (forall t, ~ In (t, Some []) decl) ->
  hash_walk (r_graph s) order -> NoDup walk -> (forall t, In t walk <-> In t (map fst (r_subs s))) ->
  (circular decl /\ recover_order s order walk = Some None) \/
  (~ circular decl /\ exists l, recover_order s order walk = Some (Some l) /\
     NoDup l /\ (forall t, In t l <-> mentioned decl t) /\ (forall t x, depends decl t x -> before l x t)).
Proof.
  intros decl order wk s Hne Hw Hwk Hin. assert (R := declared_ok decl). fold s in R. destruct R as [R1 R2 R3 R4 R5 R6].
  destruct (topo_ok (r_graph s) order R1 Hw) as [out [cyc [E [T1 [T2 [T3 [T4 T5]]]]]]].
  assert (Cy : cyclic (r_graph s) <-> circular decl).
  { split; intros [v P]; exists v; now apply (needs_path decl _ R2). }
  unfold recover_order. rewrite E. destruct cyc.
  - left. split; [|reflexivity]. apply Cy. now apply T4.
  - right. split.
    { intros C. apply Cy in C. apply T4 in C. discriminate. }
    eexists. split; [reflexivity|].
    set (f := fun v => existsb (fun p => (fst p =? v) && negb (snd p)) (r_subs s)).
    assert (Ft : forall v, f v = true <-> In (v, false) (r_subs s)).
    { intros v. unfold f. rewrite existsb_exists. split.
      - intros [[u h] [P1 P2]]. cbn [fst snd] in P2. destruct h; cbn [negb] in P2; [now rewrite andb_false_r in P2|].
        rewrite andb_true_r in P2. apply N.eqb_eq in P2. now subst u.
      - intros P. exists (v, false). cbn [fst snd]. now rewrite N.eqb_refl. }
    assert (Nm : forall v, name (r_graph s) v <-> In (v, true) (r_subs s)).
    { intros v. rewrite R6. split.
      - intros [K|[u K]].
        + apply R3 in K. destruct K as [b K]. right. exists b. now apply R2.
        + left. apply R2 in K. destruct K as [ds [K _]]. eauto.
      - intros [[ds K]|[u K]].
        + destruct ds as [|x ds]; [exfalso; eapply Hne; eauto|]. right. exists x. apply R2. exists (x :: ds). cbn [In]. auto.
        + left. assert (Q : edge (r_graph s) v u) by now apply R2. destruct Q as [es [Q _]]. now apply in_map with (f := fst) in Q. }
    assert (Excl : forall v, In (v, true) (r_subs s) -> In (v, false) (r_subs s) -> False).
    { intros v P Q. clear - R4 P Q. induction (r_subs s) as [|[u h] r IH]; [contradiction|]. cbn [map fst] in R4.
      inversion R4 as [|? ? N1 N2]; subst. destruct P as [P|P], Q as [Q|Q]; try congruence.
      - injection P as -> ->. apply N1. now apply in_map with (f := fst) in Q.
      - injection Q as -> ->. apply N1. now apply in_map with (f := fst) in P.
      - auto. }
    ands.
    + apply NoDup_app; [exact T1|now apply NoDup_filter|]. intros x Hx Hy. apply filter_In in Hy. destruct Hy as [_ Hy].
      apply Ft in Hy. apply T2 in Hx. apply Nm in Hx. eauto.
    + intros t. rewrite in_app_iff, filter_In, Ft, <- R5. split.
      * intros [X|[X _]]; [|now apply Hin]. apply T2 in X. apply Nm in X. now apply in_map with (f := fst) in X.
      * intros X. assert (X' := X). apply in_map_iff in X. destruct X as [[u h] [X1 X2]]. cbn [fst] in X1. subst u. destruct h.
        -- left. apply T5; [reflexivity|]. now apply Nm.
        -- right. split; [now apply Hin|exact X2].
    + intros t x D. apply before_app. apply R2 in D. apply T3; [exact D|]. apply T5; [reflexivity|]. right. eauto.
Qed.
