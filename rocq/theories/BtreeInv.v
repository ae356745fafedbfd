(** The shape of a B-tree: bounds of subtrees, sibling chain, contents. *)
From Coq Require Import ZArith NArith List Bool Lia.
From Coq Require Import ZifyBool ZifyNat ZifyN.
From Verif Require Import Base BtNodeModel BtNodeSpec BtNodeProofs BtreeModel.
Import ListNotations.

Lemma app_same_len {A} (a a' b b' : list A) : length a = length a' ->
  a ++ b = a' ++ b' -> a = a' /\ b = b'.
Proof.
  revert a'. induction a as [|x a IH]; intros [|y a'] HL HE; cbn in *; try lia; auto.
  injection HE as -> HE. destruct (IH a' ltac:(lia) HE) as [-> ->]. auto.
Qed.

(** ** Keys with both infinities *)

Inductive ext := NegInf | Fin (z : Z) | PosInf.

Definition elt (a b : ext) : Prop :=
  match a, b with
  | NegInf, NegInf => False
  | NegInf, _ => True
  | Fin x, Fin y => (x < y)%Z
  | Fin _, PosInf => True
  | _, _ => False
  end.
Definition ele (a b : ext) : Prop := elt a b \/ a = b.

Ltac ext_solve :=
  unfold ele in *;
  repeat match goal with
  | x : ext |- _ => destruct x
  end; cbn [elt] in *;
  repeat match goal with
  | H : _ \/ _ |- _ => destruct H
  | H : Fin _ = Fin _ |- _ => injection H as H
  | H : _ /\ _ |- _ => destruct H
  end; try discriminate; try tauto; try lia;
  try (left; lia); try (right; f_equal; lia); try (right; reflexivity); try (left; exact I).

Lemma elt_trans : forall a b d, elt a b -> elt b d -> elt a d.
Proof. intros. ext_solve. Qed.
Lemma elt_ele_trans : forall a b d, elt a b -> ele b d -> elt a d.
Proof. intros. ext_solve. Qed.
Lemma ele_elt_trans : forall a b d, ele a b -> elt b d -> elt a d.
Proof. intros. ext_solve. Qed.
Lemma ele_trans : forall a b d, ele a b -> ele b d -> ele a d.
Proof. intros. ext_solve. Qed.
Lemma ele_refl : forall a, ele a a.
Proof. right. reflexivity. Qed.
Lemma elt_irrefl : forall a, ~ elt a a.
Proof. intros a H. destruct a; cbn in H; lia. Qed.
Lemma elt_le : forall a b, elt a b -> ele a b.
Proof. left. assumption. Qed.

Definition inb (lo hi : ext) (k : Z) : Prop := elt lo (Fin k) /\ ele (Fin k) hi.

(** ** Entries within bounds *)

Definition leaf_ok {A} (lo hi : ext) (es : list (Z * A)) : Prop :=
  sorted es /\ Forall (fun p => inb lo hi (fst p)) es.

Lemma leaf_ok_nil : forall A lo hi, leaf_ok lo hi (@nil (Z * A)).
Proof. split; [apply sorted_nil|constructor]. Qed.

Lemma leaf_ok_weaken : forall A lo hi lo' hi' (es : list (Z * A)),
  leaf_ok lo hi es -> ele lo' lo -> ele hi hi' -> leaf_ok lo' hi' es.
Proof.
  intros A lo hi lo' hi' es [H1 H2] HL HH. split; [assumption|].
  eapply Forall_impl; [|exact H2]. intros p [H3 H4]. split.
  - eapply ele_elt_trans; eassumption.
  - eapply ele_trans; eassumption.
Qed.

Lemma leaf_ok_app : forall A lo m hi (a b : list (Z * A)),
  leaf_ok lo m a -> leaf_ok m hi b -> ele lo m -> ele m hi ->
  leaf_ok lo hi (a ++ b).
Proof.
  intros A lo m hi a b [Ha1 Ha2] [Hb1 Hb2] HL HH. split.
  - apply sorted_app. split; [assumption|]. split; [assumption|].
    rewrite Forall_forall in *. intros p Hp. unfold all_gt. rewrite Forall_forall.
    intros q Hq. destruct (Ha2 p Hp) as [_ H1]. destruct (Hb2 q Hq) as [H2 _].
    pose proof (ele_elt_trans _ _ _ H1 H2) as H. exact H.
  - apply Forall_app. split.
    + eapply Forall_impl; [|exact Ha2]. intros p [H1 H2]. split; [assumption|].
      eapply ele_trans; eassumption.
    + eapply Forall_impl; [|exact Hb2]. intros p [H1 H2]. split; [|assumption].
      eapply ele_elt_trans; eassumption.
Qed.

(** ** Slots: the children of an interior node with their upper bounds *)

Definition slots (es : list (Z * tree)) (ed : option tree) : list (ext * tree) :=
  map (fun p => (Fin (fst p), snd p)) es ++
  match ed with Some e => [(PosInf, e)] | None => [] end.

Fixpoint chain (P : ext -> ext -> tree -> Prop) (lo hi : ext)
    (l : list (ext * tree)) : Prop :=
  match l with
  | [] => lo = hi
  | (u, x) :: r => elt lo u /\ P lo u x /\ chain P u hi r
  end.

(** [wf h lo hi t]: [t] has height [h], its keys are above [lo] and not above
    [hi], and every lookup of such a key finds its way. *)
Fixpoint wf (h : nat) (lo hi : ext) (t : tree) : Prop :=
  match h, t with
  | O, Leaf _ _ es => leaf_ok lo hi es
  | S h', Inner _ _ es ed =>
      slots es ed <> [] /\ chain (wf h') lo hi (slots es ed)
  | _, _ => False
  end.

Lemma chain_app : forall P p q lo hi,
  chain P lo hi (p ++ q) <-> exists m, chain P lo m p /\ chain P m hi q.
Proof.
  induction p as [|[u x] p IH]; intros q lo hi; cbn [app chain].
  - split; [eauto|]. intros [m [-> H]]. exact H.
  - rewrite IH. split.
    + intros [H1 [H2 [m [H3 H4]]]]. exists m. auto.
    + intros [m [[H1 [H2 H3]] H4]]. eauto.
Qed.

Lemma chain_le : forall P l lo hi, chain P lo hi l -> ele lo hi.
Proof.
  induction l as [|[u x] l IH]; intros lo hi H; cbn in H; [right; assumption|].
  destruct H as [H1 [_ H2]]. left. eapply elt_ele_trans; eauto.
Qed.

Lemma chain_lt : forall P l lo hi, chain P lo hi l -> l <> [] -> elt lo hi.
Proof.
  intros P [|[u x] l] lo hi H Hn; [congruence|]. destruct H as [H1 [_ H2]].
  apply chain_le in H2. eapply elt_ele_trans; eauto.
Qed.

Lemma chain_weaken_lo : forall (P : ext -> ext -> tree -> Prop) l lo lo' hi,
  (forall a a' b x, P a b x -> ele a' a -> P a' b x) ->
  chain P lo hi l -> ele lo' lo -> l <> [] -> chain P lo' hi l.
Proof.
  intros P [|[u x] l] lo lo' hi HP H HL Hn; [congruence|].
  destruct H as [H1 [H2 H3]]. cbn. split; [eapply ele_elt_trans; eauto|]. eauto.
Qed.

Lemma wf_weaken_lo : forall h lo lo' hi t, wf h lo hi t -> ele lo' lo -> wf h lo' hi t.
Proof.
  induction h as [|h IH]; intros lo lo' hi [id nx es|id nx es ed] H HL;
    cbn in H |- *; try contradiction.
  - eapply leaf_ok_weaken; eauto. apply ele_refl.
  - destruct H as [H1 H2]. split; [assumption|].
    eapply chain_weaken_lo; eauto.
Qed.

Lemma chain_mono : forall (P Q : ext -> ext -> tree -> Prop) l lo hi,
  (forall a b x, P a b x -> Q a b x) -> chain P lo hi l -> chain Q lo hi l.
Proof.
  induction l as [|[u x] l IH]; intros lo hi HPQ H; cbn in *; [assumption|].
  destruct H as [H1 [H2 H3]]. auto.
Qed.

(** ** Leaves and contents *)

Notation lrec := (N * N * list (Z * N))%type.

Fixpoint leaves (t : tree) : list lrec :=
  match t with
  | Leaf id next es => [(id, next, es)]
  | Inner _ _ es ed =>
      flat_map (fun p => leaves (snd p)) es ++
      match ed with Some e => leaves e | None => [] end
  end.

Definition items (l : list lrec) : list (Z * N) := flat_map snd l.
Definition content (t : tree) : list (Z * N) := items (leaves t).
Definition lvs (l : list (ext * tree)) : list lrec := flat_map (fun p => leaves (snd p)) l.

Lemma items_app : forall a b, items (a ++ b) = items a ++ items b.
Proof. intros. apply flat_map_app. Qed.
Lemma lvs_app : forall a b, lvs (a ++ b) = lvs a ++ lvs b.
Proof. intros. apply flat_map_app. Qed.

Lemma leaves_inner : forall id nx es ed, leaves (Inner id nx es ed) = lvs (slots es ed).
Proof.
  intros. unfold slots. rewrite lvs_app. cbn [leaves]. f_equal.
  - induction es as [|p es IH]; cbn; [reflexivity|]. now rewrite IH.
  - destruct ed; cbn; [now rewrite app_nil_r|reflexivity].
Qed.

Lemma chain_items : forall (P : ext -> ext -> tree -> Prop) l lo hi,
  (forall a b x, P a b x -> leaf_ok a b (content x)) ->
  chain P lo hi l -> leaf_ok lo hi (items (lvs l)).
Proof.
  induction l as [|[u x] l IH]; intros lo hi HP H; cbn in H.
  - apply leaf_ok_nil.
  - destruct H as [H1 [H2 H3]]. change (lvs ((u, x) :: l)) with (leaves x ++ lvs l).
    rewrite items_app. eapply leaf_ok_app; [apply HP; eassumption|apply IH; eassumption| |].
    + now left.
    + eapply chain_le; eassumption.
Qed.

Lemma wf_content : forall h lo hi t, wf h lo hi t -> leaf_ok lo hi (content t).
Proof.
  induction h as [|h IH]; intros lo hi [id nx es|id nx es ed] H; cbn in H; try contradiction.
  - unfold content, items. cbn. now rewrite app_nil_r.
  - destruct H as [_ H]. unfold content. rewrite leaves_inner.
    eapply chain_items; eauto.
Qed.

Lemma wf_level : forall h lo hi t, wf h lo hi t -> level t = h.
Proof.
  induction h as [|h IH]; intros lo hi [id nx es|id nx es ed] H; cbn in H; try contradiction.
  - reflexivity.
  - destruct H as [Hn H]. cbn [level]. f_equal. unfold slots in *.
    apply chain_app in H. destruct H as [m [H1 H2]].
    destruct ed as [e|].
    + cbn in H2. destruct H2 as [_ [H2 _]]. eapply IH; eassumption.
    + destruct es as [|[k x] es]; [cbn in Hn; congruence|].
      cbn in H1. destruct H1 as [_ [H1 _]]. eapply IH; eassumption.
Qed.

(** ** Finding the child *)

Lemma slots_length : forall es ed,
  length (slots es ed) = (length es + match ed with Some _ => 1 | None => 0 end)%nat.
Proof.
  intros. unfold slots. rewrite app_length, map_length. destruct ed; reflexivity.
Qed.

Lemma child_at_slots : forall es ed i,
  child_at es ed i = option_map snd (nth_error (slots es ed) i).
Proof.
  intros es ed i. unfold child_at, slots.
  destruct (nth_error es i) as [[k x]|] eqn:E.
  - rewrite nth_error_app1
      by (rewrite map_length; apply nth_error_Some; congruence).
    rewrite nth_error_map, E. reflexivity.
  - apply nth_error_None in E. rewrite nth_error_app2 by (rewrite map_length; lia).
    rewrite map_length. destruct (Nat.eqb_spec i (length es)) as [->|Hn].
    + rewrite Nat.sub_diag. destruct ed; reflexivity.
    + destruct (i - length es)%nat as [|n] eqn:En; [lia|].
      destruct ed; cbn; [now destruct n|reflexivity].
Qed.

(** Replacing the child of a slot. *)
Lemma set_child_slots : forall es ed p u x q x',
  slots es ed = p ++ (u, x) :: q ->
  let '(es', ed') := set_child es ed (length p) x' in
  slots es' ed' = p ++ (u, x') :: q.
Proof.
  intros es ed p u x q x' HE. unfold set_child.
  destruct (nth_error es (length p)) as [[k y]|] eqn:E.
  - destruct (nth_error_split es (length p) E) as [a [b [-> Hl]]].
    rewrite <- Hl. rewrite upd_at_app. unfold slots in *.
    rewrite !map_app in *. cbn [map fst snd] in *. rewrite <- !app_assoc in *.
    cbn [app] in *. 
    assert (Hp : map (fun p : Z * tree => (Fin (fst p), snd p)) a = p /\
      (Fin k, y) :: map (fun p : Z * tree => (Fin (fst p), snd p)) b ++
       match ed with Some e => [(PosInf, e)] | None => [] end = (u, x) :: q).
    { apply app_same_len; [rewrite map_length; exact Hl|exact HE]. }
    destruct Hp as [<- Hq]. injection Hq as <- <- <-. reflexivity.
  - apply nth_error_None in E. unfold slots in *.
    assert (Hl : length (map (fun p : Z * tree => (Fin (fst p), snd p)) es ++
      match ed with Some e => [(PosInf, e)] | None => [] end) = length (p ++ (u, x) :: q))
      by now rewrite HE.
    rewrite !app_length, map_length in Hl. cbn [length] in Hl.
    destruct ed as [e|]; cbn [length] in Hl; [|lia].
    assert (Hq : length q = 0%nat) by lia. destruct q; [|discriminate].
    apply app_inj_tail in HE. destruct HE as [<- HE]. injection HE as <- <-. reflexivity.
Qed.

(** The keys of an interior node ascend. *)
Lemma slots_sorted : forall P es ed lo hi, chain P lo hi (slots es ed) ->
  sorted es /\ Forall (fun p => elt lo (Fin (fst p)) /\ ele (Fin (fst p)) hi) es.
Proof.
  intros P. induction es as [|[k x] es IH]; intros ed lo hi H.
  - split; [apply sorted_nil|constructor].
  - change (slots ((k, x) :: es) ed) with ((Fin k, x) :: slots es ed) in H.
    destruct H as [H1 [H2 H3]]. pose proof (chain_le _ _ _ _ H3) as HL.
    destruct (IH _ _ _ H3) as [H4 H5]. split.
    + apply sorted_cons. split; [|assumption]. unfold all_gt.
      eapply Forall_impl; [|exact H5]. intros p [H6 _]. exact H6.
    + constructor; [split; assumption|]. eapply Forall_impl; [|exact H5].
      intros p [H6 H7]. split; [|assumption]. eapply elt_trans; eassumption.
Qed.

(** The search in an interior node ends at the slot whose bounds hold the
    key. *)
Lemma find_slot : forall P es ed lo hi k, chain P lo hi (slots es ed) ->
  inb lo hi k ->
  exists p u x q m, slots es ed = p ++ (u, x) :: q /\
    snd (bsearch_node es k) = length p /\
    chain P lo m p /\ inb m u k /\ P m u x /\ chain P u hi q.
Proof.
  intros P es ed lo hi k HC [HL HH].
  destruct (slots_sorted _ _ _ _ _ HC) as [HS _].
  destruct (bsearch_split es k HS) as [a [b [-> [Ha [Hb ->]]]]]. cbn [snd].
  unfold slots in *. rewrite map_app, <- app_assoc in *.
  set (pa := map (fun p : Z * tree => (Fin (fst p), snd p)) a) in *.
  apply chain_app in HC. destruct HC as [m [HC1 HC2]].
  assert (Hm : elt m (Fin k)).
  { destruct a as [|y a] using rev_ind.
    - cbn in HC1. now subst.
    - unfold pa in HC1. rewrite map_app in HC1. apply chain_app in HC1.
      destruct HC1 as [m' [_ HC1]]. cbn in HC1. destruct HC1 as [_ [_ <-]].
      unfold all_lt in Ha. apply Forall_app in Ha. destruct Ha as [_ Ha].
      inversion Ha; subst. cbn in *. lia. }
  assert (Hla : length pa = length a) by (unfold pa; apply map_length).
  destruct b as [|[k' x] b]; cbn [map app fst snd] in *.
  - destruct ed as [e|].
    + cbn in HC2. destruct HC2 as [H1 [H2 H3]].
      exists pa, PosInf, e, [], m. split; [reflexivity|]. split; [auto|].
      split; [assumption|]. split; [split; [assumption|left; exact I]|]. split; [assumption|].
      cbn. assumption.
    + cbn in HC2. subst m. exfalso. eapply elt_irrefl. eapply elt_ele_trans; eassumption.
  - destruct HC2 as [H1 [H2 H3]].
    exists pa, (Fin k'), x,
      (map (fun p => (Fin (fst p), snd p)) b ++
       match ed with Some e => [(PosInf, e)] | None => [] end), m.
    split; [reflexivity|]. split; [auto|]. split; [assumption|].
    split; [|split; assumption]. split; [assumption|].
    inversion Hb; subst. cbn in *. destruct (Z.eq_dec k' k) as [->|]; [now right|left; cbn; lia].
Qed.

(** ** Changes of the leaf list *)

Fixpoint lchain (a : N) (l : list lrec) (e : N) : Prop :=
  match l with
  | [] => a = e
  | (i, n, _) :: r => i = a /\ lchain n r e
  end.
Definition ids (l : list lrec) : list N := map (fun r => fst (fst r)) l.

(** The sibling links are kept up, and new ids come from [nx .. nx'). *)
Record lgood (nx : N) (l : list lrec) (nx' : N) (l' : list lrec) : Prop := {
  lg_nx : (nx <= nx')%N;
  lg_chain : forall a e, lchain a l e -> lchain a l' e;
  lg_new : forall i, In i (ids l') -> In i (ids l) \/ (nx <= i < nx')%N;
  lg_nodup : NoDup (ids l) -> Forall (fun i => (i < nx)%N) (ids l) -> NoDup (ids l')
}.

Lemma lchain_app : forall a b x y,
  lchain x (a ++ b) y <-> exists m, lchain x a m /\ lchain m b y.
Proof.
  induction a as [|[[i n] es] a IH]; intros b x y; cbn.
  - split; [eauto|]. intros [m [-> H]]. exact H.
  - rewrite IH. split.
    + intros [H [m [H1 H2]]]. eauto.
    + intros [m [[H H1] H2]]. eauto.
Qed.

Lemma ids_app : forall a b, ids (a ++ b) = ids a ++ ids b.
Proof. intros. apply map_app. Qed.

Lemma lgood_same : forall nx nx' l l',
  (nx <= nx')%N -> (forall a e, lchain a l e -> lchain a l' e) -> ids l' = ids l ->
  lgood nx l nx' l'.
Proof.
  intros nx nx' l l' H1 H2 H3. constructor; [assumption|assumption| |].
  - rewrite H3. auto.
  - rewrite H3. auto.
Qed.

Lemma lgood_refl : forall nx nx' l, (nx <= nx')%N -> lgood nx l nx' l.
Proof. intros. apply lgood_same; auto. Qed.

Lemma lgood_trans : forall nx l nx1 l1 nx2 l2,
  lgood nx l nx1 l1 -> lgood nx1 l1 nx2 l2 -> lgood nx l nx2 l2.
Proof.
  intros nx l nx1 l1 nx2 l2 H1 H2. destruct H1, H2. constructor.
  - lia.
  - auto.
  - intros i Hi. destruct (lg_new1 i Hi) as [H|H]; [|lia].
    destruct (lg_new0 i H) as [H'|H']; [auto|lia].
  - intros HN HF. apply lg_nodup1; [auto|]. rewrite Forall_forall in *.
    intros i Hi. destruct (lg_new0 i Hi) as [H|H]; [specialize (HF i H); lia|lia].
Qed.

Lemma NoDup_app_iff' : forall (T : Type) (a b : list T),
  NoDup (a ++ b) <-> NoDup a /\ NoDup b /\ (forall x, In x a -> ~ In x b).
Proof.
  induction a as [|x a IH]; intros b; cbn.
  - split; [intros H; split; [constructor|split; [assumption|tauto]]|tauto].
  - split.
    + intros H. inversion H; subst. apply IH in H3. destruct H3 as [H4 [H5 H6]].
      rewrite in_app_iff in H2. split; [constructor; tauto|]. split; [assumption|].
      intros y [->|Hy]; [tauto|auto].
    + intros [H1 [H2 H3]]. inversion H1; subst. constructor.
      * rewrite in_app_iff. intros [H|H]; [tauto|]. eapply H3; [left; reflexivity|assumption].
      * apply IH. split; [assumption|]. split; [assumption|]. intros y Hy. apply H3. now right.
Qed.

Lemma lgood_ctx : forall p q nx l nx' l',
  lgood nx l nx' l' -> lgood nx (p ++ l ++ q) nx' (p ++ l' ++ q).
Proof.
  intros p q nx l nx' l' []. constructor.
  - assumption.
  - intros a e H. apply lchain_app in H. destruct H as [m [H1 H2]].
    apply lchain_app in H2. destruct H2 as [m' [H2 H3]].
    apply lchain_app. exists m. split; [assumption|]. apply lchain_app. exists m'. auto.
  - intros i. rewrite !ids_app, !in_app_iff. intros [H|[H|H]]; auto.
    destruct (lg_new0 i H); auto.
  - rewrite !ids_app. intros HN HF. rewrite !NoDup_app_iff' in *.
    rewrite !Forall_app in HF. destruct HF as [F1 [F2 F3]].
    destruct HN as [N1 [[N2 [N3 N4]] N5]]. rewrite Forall_forall in F1, F3.
    split; [assumption|]. split; [split; [auto|split; [assumption|]]|].
    + intros i Hi Hq. destruct (lg_new0 i Hi) as [H|H]; [eapply N4; eassumption|].
      specialize (F3 i Hq). cbn in F3. lia.
    + intros i Hi. rewrite in_app_iff. intros [H|H].
      * destruct (lg_new0 i H) as [H'|H'].
        { apply (N5 i Hi). rewrite in_app_iff. auto. }
        { specialize (F1 i Hi). cbn in F1. lia. }
      * apply (N5 i Hi). rewrite in_app_iff. auto.
Qed.

(** ** Splits *)

Section WithCfg.
Variable c : cfg.

Lemma last_key_app : forall A (a : list (Z * A)) k v,
  last_key c (a ++ [(k, v)]) = k.
Proof.
  intros. unfold last_key. rewrite map_app. cbn. apply last_last.
Qed.

Lemma leaf_ok_split : forall A lo hi (a b : list (Z * A)),
  leaf_ok lo hi (a ++ b) -> a <> [] ->
  leaf_ok lo (Fin (last_key c a)) a /\ leaf_ok (Fin (last_key c a)) hi b /\
  inb lo hi (last_key c a) /\ (b <> [] -> elt (Fin (last_key c a)) hi).
Proof.
  intros A lo hi a b [HS HF] Hn.
  destruct (exists_last Hn) as [a' [[k v] ->]]. rename a' into a.
  rewrite last_key_app. apply Forall_app in HF. destruct HF as [HFa HFb].
  apply sorted_app in HS. destruct HS as [HSa [HSb HSab]].
  assert (Hk : inb lo hi k).
  { apply Forall_app in HFa. destruct HFa as [_ HFa]. inversion HFa; subst. assumption. }
  assert (Hlt : Forall (fun p : Z * A => k < fst p)%Z b).
  { apply Forall_app in HSab. destruct HSab as [_ HSab]. inversion HSab; subst. assumption. }
  split; [|split; [|split; [assumption|]]].
  - split; [assumption|]. apply Forall_app in HFa. destruct HFa as [HFa _].
    apply Forall_app. split.
    + apply sorted_app in HSa. destruct HSa as [_ [_ HSa]].
      rewrite Forall_forall in *. intros p Hp. specialize (HSa p Hp).
      inversion HSa; subst. split; [apply HFa; assumption|]. left. cbn in *. assumption.
    + constructor; [|constructor]. cbn. destruct Hk. split; [assumption|]. apply ele_refl.
  - split; [assumption|]. rewrite Forall_forall in *. intros p Hp.
    split; [exact (Hlt p Hp)|]. apply (HFb p Hp).
  - intros Hb. destruct b as [|q b]; [congruence|]. inversion Hlt; subst. inversion HFb; subst.
    match goal with H : inb _ _ (fst q) |- _ => destruct H as [_ H] end.
    eapply elt_ele_trans; [|eassumption]. assumption.
Qed.

Lemma slots_app : forall a b ed, slots (a ++ b) ed = slots a None ++ slots b ed.
Proof. intros. unfold slots. rewrite map_app, app_nil_r, app_assoc. reflexivity. Qed.

Lemma slots_split : forall P lo hi a b ed,
  chain P lo hi (slots (a ++ b) ed) -> a <> [] ->
  chain P lo (Fin (last_key c a)) (slots a None) /\
  chain P (Fin (last_key c a)) hi (slots b ed) /\
  inb lo hi (last_key c a) /\ (slots b ed <> [] -> elt (Fin (last_key c a)) hi).
Proof.
  intros P lo hi a b ed HC Hn. rewrite slots_app in HC.
  apply chain_app in HC. destruct HC as [m [H1 H2]].
  destruct (exists_last Hn) as [a' [[k x] ->]]. rename a' into a.
  rewrite last_key_app.
  assert (m = Fin k).
  { rewrite slots_app in H1. apply chain_app in H1. destruct H1 as [m' [_ H1]].
    cbn in H1. destruct H1 as [_ [_ H1]]. congruence. }
  subst m. split; [assumption|]. split; [assumption|]. split.
  - split.
    + eapply chain_lt; [exact H1|]. rewrite slots_app. intros E.
      apply app_eq_nil in E. destruct E as [_ E]. discriminate.
    + eapply chain_le; exact H2.
  - intros. eapply chain_lt; eassumption.
Qed.

Lemma moved_range : forall A (sz : Z * A -> N) es, moved c sz es <> 0%nat ->
  (moved c sz es < length es)%nat.
Proof. intros A sz es H. unfold moved in *. lia. Qed.

Lemma split_child_ok : forall h lo hi t nx k l r,
  wf h lo hi t -> split_child c nx t = Ok (k, l, r) ->
  elt lo (Fin k) /\ elt (Fin k) hi /\ wf h lo (Fin k) l /\ wf h (Fin k) hi r /\
  content l ++ content r = content t /\
  lgood nx (leaves t) (nx + 1) (leaves l ++ leaves r).
Proof.
  intros h lo hi t nx k l r HW HS.
  destruct h as [|h], t as [id next es|id next es ed]; cbn in HW; try contradiction;
    cbn [split_child] in HS.
  - destruct (Nat.eqb_spec (moved c (lsz c) es) 0) as [|Hm]; [discriminate|].
    pose proof (moved_range _ _ _ Hm) as Hlt.
    set (n := (length es - moved c (lsz c) es)%nat) in *.
    injection HS as <- <- <-.
    assert (H1 : firstn n es <> []).
    { intros E. apply (f_equal (@length _)) in E. rewrite firstn_length in E. cbn in E. lia. }
    assert (H2 : skipn n es <> []).
    { intros E. apply (f_equal (@length _)) in E. rewrite skipn_length in E. cbn in E. lia. }
    rewrite <- (firstn_skipn n es) in HW.
    destruct (leaf_ok_split _ _ _ _ _ HW H1) as [W1 [W2 [[W3 W4] W5]]].
    split; [assumption|]. split; [auto|]. split; [exact W1|]. split; [exact W2|].
    split.
    + unfold content, items. cbn. rewrite !app_nil_r. apply firstn_skipn.
    + cbn [leaves app]. constructor.
      * lia.
      * cbn. intros a e [-> ->]. auto.
      * cbn. intros i [->|[->|[]]]; [auto|right; lia].
      * cbn. intros _ HF. inversion HF; subst. cbn in *.
        constructor; [|constructor; [tauto|constructor]].
        intros [E|[]]. lia.
  - destruct (Nat.eqb_spec (moved c (isz c) es) 0) as [|Hm]; [discriminate|].
    pose proof (moved_range _ _ _ Hm) as Hlt.
    set (n := (length es - moved c (isz c) es)%nat) in *.
    injection HS as <- <- <-.
    assert (H1 : firstn n es <> []).
    { intros E. apply (f_equal (@length _)) in E. rewrite firstn_length in E. cbn in E. lia. }
    assert (H2 : skipn n es <> []).
    { intros E. apply (f_equal (@length _)) in E. rewrite skipn_length in E. cbn in E. lia. }
    destruct HW as [_ HW]. rewrite <- (firstn_skipn n es) in HW.
    destruct (slots_split _ _ _ _ _ _ HW H1) as [W1 [W2 [[W3 W4] W5]]].
    assert (H3 : slots (skipn n es) ed <> []).
    { destruct (skipn n es); [congruence|discriminate]. }
    assert (H4 : slots (firstn n es) None <> []).
    { destruct (firstn n es); [congruence|discriminate]. }
    assert (HE : lvs (slots es ed) = lvs (slots (firstn n es) None) ++ lvs (slots (skipn n es) ed)).
    { rewrite <- lvs_app, <- slots_app, firstn_skipn. reflexivity. }
    split; [assumption|]. split; [auto|]. split; [split; assumption|].
    split; [split; assumption|]. split.
    + unfold content. rewrite !leaves_inner, HE, items_app. reflexivity.
    + rewrite !leaves_inner, HE. apply lgood_refl. lia.
Qed.

(** Inserting a slot before one. *)
Lemma ins_at_slots : forall es ed p u x q k y,
  slots es ed = p ++ (u, x) :: q ->
  slots (ins_at es (length p) k y) ed = p ++ (Fin k, y) :: (u, x) :: q.
Proof.
  intros es ed p u x q k y HE. unfold slots in *.
  assert (Hl : (length p <= length es)%nat).
  { apply (f_equal (@length _)) in HE. rewrite !app_length, map_length in HE.
    cbn [length] in HE. destruct ed; cbn [length] in HE; lia. }
  rewrite <- (firstn_skipn (length p) es) in HE at 1.
  unfold ins_at. rewrite map_app in *. cbn [map fst snd]. rewrite <- app_assoc in *.
  apply app_same_len in HE.
  - destruct HE as [-> HE]. cbn [app]. rewrite HE. reflexivity.
  - rewrite map_length, firstn_length. lia.
Qed.

Lemma split_node_ok : forall h lo hi es ed p u x q m nx es' ed' nx',
  slots es ed = p ++ (u, x) :: q -> chain (wf h) lo m p -> wf h m u x ->
  chain (wf h) u hi q ->
  split_node c nx es ed (length p) x = Ok (es', ed', nx') ->
  slots es' ed' <> [] /\ chain (wf h) lo hi (slots es' ed') /\
  items (lvs (slots es' ed')) = items (lvs (slots es ed)) /\
  lgood nx (lvs (slots es ed)) nx' (lvs (slots es' ed')).
Proof.
  intros h lo hi es ed p u x q m nx es' ed' nx' HE HP HX HQ HS.
  unfold split_node in HS.
  destruct (split_child c nx x) as [[[k l] r]|s] eqn:EC; [|discriminate].
  pose proof (set_child_slots es ed p u x q r HE) as H1.
  destruct (set_child es ed (length p) r) as [es1 ed1].
  destruct (_ <=? _)%N; [|discriminate]. injection HS as <- <- <-.
  rewrite (ins_at_slots _ _ _ _ _ _ k l H1).
  destruct (split_child_ok _ _ _ _ _ _ _ _ HX EC) as [K1 [K2 [K3 [K4 [K5 K6]]]]].
  split; [destruct p; discriminate|]. split; [|split].
  - apply chain_app. exists m. split; [assumption|]. cbn. auto.
  - rewrite HE, !lvs_app, !items_app. cbn [lvs flat_map snd].
    fold (lvs q). rewrite !items_app. f_equal.
    rewrite app_assoc. f_equal. exact K5.
  - rewrite HE, !lvs_app. cbn [lvs flat_map snd]. fold (lvs q).
    rewrite (app_assoc (leaves l)). now apply lgood_ctx.
Qed.

End WithCfg.
