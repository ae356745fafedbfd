(** * Proofs about the log device. *)
From Coq Require Import NArith ZArith List Bool Lia ZifyBool ZifyNat ZifyN Sorted.
From Verif Require Import Base LogDevModel LogDevSpec.
Import ListNotations.
Open Scope Z_scope.

(** ** Filters *)
Lemma filter_all {A} (f : A -> bool) l : (forall x, In x l -> f x = true) -> filter f l = l.
Proof. induction l as [|x l IH]; cbn; intro H; [reflexivity|]. rewrite (H x (or_introl eq_refl)), IH; auto. Qed.
Lemma filter_none {A} (f : A -> bool) l : (forall x, In x l -> f x = false) -> filter f l = [].
Proof. induction l as [|x l IH]; cbn; intro H; [reflexivity|]. rewrite (H x (or_introl eq_refl)), IH; auto. Qed.
Lemma filter_filter {A} (f g : A -> bool) l : filter f (filter g l) = filter (fun x => g x && f x) l.
Proof. induction l as [|x l IH]; cbn; [reflexivity|]. destruct (g x); cbn; rewrite <- IH; reflexivity. Qed.
Lemma filter_map {A B} (f : B -> bool) (g : A -> B) l : filter f (map g l) = map g (filter (fun x => f (g x)) l).
Proof. induction l as [|x l IH]; cbn; [reflexivity|]. destruct (f (g x)); cbn; rewrite IH; reflexivity. Qed.

Lemma NoDup_app {A} (l r : list A) : NoDup l -> NoDup r -> (forall x, In x l -> ~ In x r) -> NoDup (l ++ r).
Proof.
  intros H1 H2 H3. induction l as [|a l IH]; cbn; [assumption|]. inversion_clear H1. constructor.
  - intro HI. apply in_app_or in HI. destruct HI as [HI|HI]; [contradiction|]. apply (H3 a); [now left|assumption].
  - apply IH; [assumption|]. intros x Hx. apply H3. now right.
Qed.

(** ** Lists by store id *)
Lemma find_id_in {A} id (l : list (N * A)) x : find_id id l = Some x -> In (id, x) l.
Proof. induction l as [|[k v] l IH]; cbn; [discriminate|]. destruct (N.eqb_spec k id); intro H; [injection H as ->; subst; auto|auto]. Qed.
Lemma find_id_none {A} id (l : list (N * A)) : find_id id l = None <-> ~ In id (map fst l).
Proof.
  induction l as [|[k v] l IH]; cbn; [tauto|]. destruct (N.eqb_spec k id); split; intro H; try discriminate; try tauto.
Qed.
Lemma find_id_some {A} id (l : list (N * A)) : In id (map fst l) -> exists x, find_id id l = Some x.
Proof. intro H. destruct (find_id id l) eqn:E; [eauto|]. apply find_id_none in E. contradiction. Qed.
Lemma in_find_id {A} id (l : list (N * A)) x : NoDup (map fst l) -> In (id, x) l -> find_id id l = Some x.
Proof.
  induction l as [|[k v] l IH]; cbn; [tauto|]. intros ND [H|H].
  - injection H as -> ->. now rewrite N.eqb_refl.
  - inversion_clear ND. destruct (N.eqb_spec k id) as [->|]; [|auto]. destruct H0. now apply (in_map fst) in H.
Qed.
Lemma keys_set {A} id (v : A) l : map fst (set_id id v l) = map fst l.
Proof. unfold set_id. rewrite map_map. apply map_ext. intros [k x]; cbn. now destruct (k =? id)%N. Qed.
Lemma keys_on id f l : map fst (on_store id f l) = map fst l.
Proof. unfold on_store. rewrite map_map. apply map_ext. intros [k x]; cbn. now destruct (k =? id)%N. Qed.
Lemma find_set_eq {A} id (v : A) l : In id (map fst l) -> find_id id (set_id id v l) = Some v.
Proof.
  induction l as [|[k x] l IH]; cbn; [tauto|]. destruct (N.eqb_spec k id); cbn; intro H.
  - subst. now rewrite N.eqb_refl.
  - destruct (N.eqb_spec k id); [contradiction|]. destruct H; [contradiction|auto].
Qed.
Lemma find_on_eq id f l x : find_id id l = Some x -> find_id id (on_store id f l) = Some (f x).
Proof.
  induction l as [|[k y] l IH]; cbn; [discriminate|]. destruct (N.eqb_spec k id); cbn; intro H.
  - subst. rewrite N.eqb_refl. now injection H as ->.
  - destruct (N.eqb_spec k id); [contradiction|auto].
Qed.

(** Two such lists, side by side. *)
Definition both {A B} (P : N -> A -> B -> Prop) := Forall2 (fun (a : N * A) (b : N * B) => fst a = fst b /\ P (fst a) (snd a) (snd b)).
Lemma both_keys {A B} (P : N -> A -> B -> Prop) l1 l2 : both P l1 l2 -> map fst l1 = map fst l2.
Proof. induction 1; cbn; [reflexivity|]. destruct H. now rewrite H, IHForall2. Qed.
Lemma both_find {A B} (P : N -> A -> B -> Prop) l1 l2 id x : both P l1 l2 -> find_id id l1 = Some x -> exists y, find_id id l2 = Some y /\ P id x y.
Proof.
  induction 1 as [|[k a] [k' b] l1 l2 [HK HP] H IH]; cbn in *; [discriminate|]. subst k'.
  destruct (N.eqb_spec k id); [|auto]. intros [= ->]. subst. eauto.
Qed.
Lemma both_find' {A B} (P : N -> A -> B -> Prop) l1 l2 id y : both P l1 l2 -> find_id id l2 = Some y -> exists x, find_id id l1 = Some x /\ P id x y.
Proof.
  induction 1 as [|[k a] [k' b] l1 l2 [HK HP] H IH]; cbn in *; [discriminate|]. subst k'.
  destruct (N.eqb_spec k id); [|auto]. intros [= ->]. subst. eauto.
Qed.
Lemma both_impl {A B} (P Q : N -> A -> B -> Prop) l1 l2 :
  (forall id x y, In id (map fst l1) -> P id x y -> Q id x y) -> both P l1 l2 -> both Q l1 l2.
Proof.
  intros HI H. induction H as [|[k a] [k' b] l1 l2 [HK HP] H IH]; constructor.
  - cbn in *. split; [assumption|]. apply HI; [now left|assumption].
  - apply IH. intros. apply HI; [right; assumption|assumption].
Qed.
Lemma both_set {A} (P Q : N -> A -> glog -> Prop) l1 l2 id v f :
  NoDup (map fst l1) -> both P l1 l2 ->
  (forall k x y, k <> id -> P k x y -> Q k x y) ->
  (forall y, find_id id l2 = Some y -> Q id v (f y)) ->
  both Q (set_id id v l1) (on_store id f l2).
Proof.
  intros ND H HO HN. induction H as [|[k a] [k' b] l1 l2 [HK HP] H IH]; cbn in *; [constructor|]. subst k'.
  inversion_clear ND. constructor.
  - cbn. destruct (N.eqb_spec k id) as [->|]; cbn; auto.
  - destruct (N.eqb_spec k id) as [->|].
    + assert (HK : ~ In id (map fst l2)) by (rewrite <- (both_keys _ _ _ H); assumption).
      clear IH HN. revert H0 HK H. clear -HO. revert l2. induction l1 as [|[k a] l1 IH]; intros l2 N1 N2 H; inversion H; subst; cbn; [constructor|].
      destruct y as [k' b]. cbn in *. destruct H2 as [-> HP].
      constructor.
      * cbn. destruct (N.eqb_spec k' id) as [->|]; [tauto|]. cbn. auto.
      * apply IH; [tauto|tauto|assumption].
    + apply IH; assumption.
Qed.
Lemma both_set_l {A B} (P Q : N -> A -> B -> Prop) l1 l2 id v :
  NoDup (map fst l1) -> both P l1 l2 ->
  (forall k x y, k <> id -> P k x y -> Q k x y) ->
  (forall y, find_id id l2 = Some y -> Q id v y) ->
  both Q (set_id id v l1) l2.
Proof.
  intros ND H HO HN. induction H as [|[k a] [k' b] l1 l2 [HK HP] H IH]; cbn in *; [constructor|]. subst k'.
  inversion_clear ND. constructor.
  - cbn. destruct (N.eqb_spec k id) as [->|]; cbn; auto.
  - destruct (N.eqb_spec k id) as [->|].
    + clear IH HN. revert H0 H. clear -HO. revert l2. induction l1 as [|[k a] l1 IH]; intros l2 N1 H; inversion H; subst; cbn; [constructor|].
      destruct y as [k' b]. cbn in *. destruct H2 as [-> HP].
      constructor.
      * cbn. destruct (N.eqb_spec k' id) as [->|]; [tauto|]. cbn. auto.
      * apply IH; [tauto|assumption].
    + apply IH; assumption.
Qed.
Lemma both_map_r {A B} (P : N -> A -> B -> Prop) (Q : N -> A -> B -> Prop) l1 l2 f :
  both P l1 l2 -> (forall id x y, In (id, x) l1 -> P id x y -> Q id x (f id y)) -> both Q l1 (map (fun e => (fst e, f (fst e) (snd e))) l2).
Proof.
  induction 1 as [|[k a] [k' b] l1 l2 [HK HP] H IH]; intro HI; cbn in *; constructor.
  - cbn. subst k'. split; [reflexivity|]. apply HI; auto.
  - apply IH. intros id x y HF. apply HI. auto.
Qed.
Lemma both_in {A B} (P : N -> A -> B -> Prop) l1 l2 : both P l1 l2 -> both (fun id x y => In (id, x) l1 /\ P id x y) l1 l2.
Proof.
  intro H. cut (forall l, (forall e, In e l1 -> In e l) -> both (fun id x y => In (id, x) l /\ P id x y) l1 l2); [intro HC; apply HC; auto|].
  intros l HL. induction H as [|[k a] [k' b] l1 l2 [HK HP] H IH]; constructor.
  - cbn in *. subst. split; [reflexivity|split; [apply HL; now left|assumption]].
  - apply IH. intros e He. apply HL. now right.
Qed.

(** ** Numbered lists *)
Lemma numz_app {A} i (l r : list A) : numz i (l ++ r) = numz i l ++ numz (i + Z.of_nat (length l)) r.
Proof.
  revert i; induction l as [|x l IH]; intro i; cbn [numz app length].
  - f_equal. lia.
  - rewrite IH. do 3 f_equal. lia.
Qed.
Lemma numz_length {A} i (l : list A) : length (numz i l) = length l.
Proof. revert i; induction l; intro i; cbn; auto. Qed.
Lemma numz_nth {A} i (l : list A) n x : nth_error l n = Some x -> nth_error (numz i l) n = Some (i + Z.of_nat n, x).
Proof.
  revert i n; induction l as [|y l IH]; intros i [|n] H; cbn in *; try discriminate.
  - injection H as ->. do 2 f_equal. lia.
  - rewrite (IH (i + 1) n H). do 2 f_equal. lia.
Qed.
Lemma numz_skipn {A} i (l : list A) n : (n <= length l)%nat -> skipn n (numz i l) = numz (i + Z.of_nat n) (skipn n l).
Proof.
  revert i n; induction l as [|y l IH]; intros i [|n] H; cbn in *; try reflexivity; try lia.
  - now rewrite Z.add_0_r.
  - rewrite IH by lia. f_equal. lia.
Qed.
Lemma numz_firstn {A} i (l : list A) n : firstn n (numz i l) = numz i (firstn n l).
Proof. revert i n; induction l as [|y l IH]; intros i [|n]; cbn; try reflexivity. now rewrite IH. Qed.
Lemma numz_in {A} i (l : list A) j x : In (j, x) (numz i l) -> i <= j < i + Z.of_nat (length l) /\ nth_error l (Z.to_nat (j - i)) = Some x.
Proof.
  revert i; induction l as [|y l IH]; intro i; cbn [numz In length]; [tauto|]. intros [[= <- ->]|H].
  - split; [lia|]. now rewrite Z.sub_diag.
  - apply IH in H. destruct H as [H1 H2]. split; [lia|]. replace (Z.to_nat (j - i)) with (S (Z.to_nat (j - (i + 1)))) by lia. exact H2.
Qed.
Lemma number_numz from l : number from l = numz from l.
Proof. revert from; induction l as [|d l IH]; intro from; cbn; [reflexivity|]. now rewrite IH. Qed.

Notation srt := (StronglySorted Z.lt).
Lemma numz_sorted {A} i (l : list A) : srt (map fst (numz i l)) /\ forall j, In j (map fst (numz i l)) -> i <= j.
Proof.
  revert i; induction l as [|x l IH]; intro i; cbn; [split; [constructor|tauto]|].
  destruct (IH (i + 1)) as [H1 H2]. split.
  - constructor; [assumption|]. apply Forall_forall. intros j H. apply H2 in H. lia.
  - intros j [->|H]; [lia|apply H2 in H; lia].
Qed.
Lemma srt_filter {A} (f : Z * A -> bool) l : srt (map fst l) -> srt (map fst (filter f l)).
Proof.
  induction l as [|x l IH]; cbn; [auto|]. intro H. inversion_clear H. destruct (f x); cbn; auto.
  constructor; [auto|]. apply Forall_forall. intros j HJ. rewrite Forall_forall in H1. apply H1.
  apply in_map_iff in HJ. destruct HJ as (y & <- & HY). apply filter_In in HY. now apply in_map.
Qed.
Lemma srt_unique {A} (l : list (Z * A)) i x y : srt (map fst l) -> In (i, x) l -> In (i, y) l -> x = y.
Proof.
  induction l as [|[j z] l IH]; cbn; [tauto|]. intros H. inversion_clear H. rewrite Forall_forall in H1.
  assert (HB : forall a, In (i, a) l -> j < i) by (intros a HA; apply H1; now apply (in_map fst) in HA).
  intros [E1|E1] [E2|E2].
  - congruence.
  - injection E1 as -> ->. apply HB in E2. lia.
  - injection E2 as -> ->. apply HB in E1. lia.
  - auto.
Qed.
Lemma srt_app l r : srt (l ++ r) -> srt l /\ srt r /\ forall x y, In x l -> In y r -> x < y.
Proof.
  induction l as [|a l IH]; cbn; intro H.
  - split; [constructor|split; [assumption|tauto]].
  - inversion_clear H. destruct (IH H0) as (H2 & H3 & H4). rewrite Forall_forall in H1. split; [|split; [assumption|]].
    + constructor; [assumption|]. apply Forall_forall. intros x Hx. apply H1. apply in_or_app. auto.
    + intros x y [<-|Hx] Hy; [apply H1; apply in_or_app; auto|auto].
Qed.

(** ** Groups *)
Fixpoint chain (s : Z) (gs : list (Z * list entry)) (e : Z) : Prop :=
  match gs with
  | [] => s = e
  | (f, l) :: r => f = s /\ l <> [] /\ chain (s + Z.of_nat (length l)) r e
  end.
Lemma chain_app s gs m gs' e : chain s gs m -> chain m gs' e -> chain s (gs ++ gs') e.
Proof.
  revert s; induction gs as [|[f l] gs IH]; intro s; cbn [chain app]; [now intros ->|]. intros (-> & H & HC) H2. auto.
Qed.
Lemma chain_records s gs e : chain s gs e ->
  records gs = numz s (concat (map snd gs)) /\ e = s + Z.of_nat (length (concat (map snd gs))).
Proof.
  revert s; induction gs as [|[f l] gs IH]; intro s; cbn [chain].
  - intros <-. cbn. split; [reflexivity|lia].
  - intros (-> & H & HC). destruct (IH _ HC) as [H1 H2]. unfold records in *. cbn [map concat fst snd]. rewrite H1.
    rewrite numz_app, app_length. split; [reflexivity|lia].
Qed.
Lemma records_app a b : records (a ++ b) = records a ++ records b.
Proof. unfold records. now rewrite map_app, concat_app. Qed.
Lemma chain_in s gs e f l : chain s gs e -> In (f, l) gs -> s <= f /\ f + Z.of_nat (length l) <= e /\ l <> [].
Proof.
  revert s; induction gs as [|[f' l'] gs IH]; intro s; cbn [chain In]; [tauto|]. intros (-> & H & HC) [[= -> ->]|HI].
  - split; [lia|split; [|assumption]]. apply chain_records in HC. lia.
  - apply (IH _ HC) in HI. destruct HI as (H1 & H2 & H3). split; [lia|auto].
Qed.
(** Cutting at the start of a group. *)
Lemma chain_cut s gs e t : chain s gs e -> In t (map fst gs) ->
  chain t (filter (fun g => t <=? fst g) gs) e /\ records (filter (fun g => t <=? fst g) gs) = filter (fun r => t <=? fst r) (records gs).
Proof.
  revert s; induction gs as [|[f l] gs IH]; intro s; cbn [chain map In]; [tauto|]. intros (-> & H & HC) HI. cbn [fst] in HI.
  cbn [filter fst]. destruct (Z.leb_spec t s).
  - destruct HI as [->|HI].
    2:{ apply in_map_iff in HI. destruct HI as ([f' l'] & HF & HI). cbn in HF. subst f'. apply (chain_in _ _ _ _ _ HC) in HI. destruct l; [contradiction|]. cbn in HI. lia. }
    assert (HA : filter (fun g : Z * list entry => t <=? fst g) gs = gs).
    { apply filter_all. intros [f' l'] HI. apply (chain_in _ _ _ _ _ HC) in HI. cbn [fst]. lia. }
    rewrite HA. split; [cbn [chain]; auto|].
    change ((t, l) :: gs) with ([(t, l)] ++ gs).
    assert (HC' : chain t ((t, l) :: gs) e) by (cbn [chain]; auto).
    apply chain_records in HC'. destruct HC' as [HR _]. cbn [app]. rewrite HR.
    symmetry. apply filter_all. intros [j x] HJ. apply numz_in in HJ. cbn. lia.
  - destruct HI as [HI|HI]; [lia|]. destruct (IH _ HC HI) as [H1 H2]. split; [assumption|]. rewrite H2.
    unfold records. cbn [map concat]. rewrite filter_app. fold (records gs). cbn [fst snd].
    assert (HF : filter (fun r : Z * entry => t <=? fst r) (numz s l) = []).
    { apply in_map_iff in HI. destruct HI as ([f' l'] & HF & HI). cbn in HF. subst f'. apply (chain_in _ _ _ _ _ HC) in HI.
      apply filter_none. intros [j x] HJ. apply numz_in in HJ. cbn. lia. }
    rewrite HF. reflexivity.
Qed.

(** ** The records of one store on the device *)
Definition keep (id : N) (from : Z) (rb : list (N * (Z * Z))) (r : Z * entry) : bool :=
  (fst (fst (snd r)) =? id)%N && (from <=? snd (fst (snd r))) && negb (is_rolled_back rb id (fst r)).
Definition strip (r : Z * entry) : Z * (Z * data) := (fst r, (snd (fst (snd r)), snd (snd r))).
Definition cont (id : N) (from : Z) rb (E : list (Z * entry)) : list (Z * (Z * data)) := map strip (filter (keep id from rb) E).
Definition zip (from : Z) (K : list (Z * Z)) (items : list data) : list (Z * (Z * data)) := combine (map fst K) (numz from items).
Definition pend_of (id : N) (p : list entry) : list (Z * data) := calls_of id p.
Definition recs (from : Z) (K : list (Z * Z)) (n : nat) := numz from (map Some K ++ repeat None n).

Lemma cont_app id from rb a b : cont id from rb (a ++ b) = cont id from rb a ++ cont id from rb b.
Proof. unfold cont. now rewrite filter_app, map_app. Qed.
Lemma cont_sorted id from rb E : srt (map fst E) -> srt (map fst (cont id from rb E)).
Proof.
  intro H. unfold cont. rewrite map_map. cbn. apply srt_filter. exact H.
Qed.
Lemma cont_in id from rb E i l d : In (i, (l, d)) (cont id from rb E) <-> In (i, (id, l, d)) E /\ from <= l /\ is_rolled_back rb id i = false.
Proof.
  unfold cont. rewrite in_map_iff. split.
  - intros ([i' [[id' l'] d']] & HS & HI). cbn in HS. injection HS as -> -> ->. apply filter_In in HI. destruct HI as [HI HK].
    unfold keep in HK. cbn in HK. apply andb_prop in HK. destruct HK as [HK H3]. apply andb_prop in HK. destruct HK as [H1 H2].
    apply N.eqb_eq in H1. subst. apply negb_true_iff in H3. split; [assumption|split; [lia|assumption]].
  - intros (HI & HL & HR). exists (i, (id, l, d)). split; [reflexivity|]. apply filter_In. split; [assumption|].
    unfold keep. cbn. rewrite N.eqb_refl, HR. cbn. lia.
Qed.
(** A later start keeps the later records. *)
Lemma cont_later id from from' rb E : from <= from' ->
  cont id from' rb E = filter (fun x => from' <=? fst (snd x)) (cont id from rb E).
Proof.
  intro H. unfold cont. rewrite filter_map, filter_filter. f_equal. apply filter_ext. intros [i [[s l] d]]. unfold keep, strip. cbn.
  destruct (s =? id)%N, (is_rolled_back rb id i), (Z.leb_spec from l), (Z.leb_spec from' l); cbn; try reflexivity; lia.
Qed.

Lemma zip_length from K items : (length K <= length items)%nat -> length (zip from K items) = length K.
Proof. intro H. unfold zip. rewrite combine_length, map_length, numz_length. lia. Qed.
Lemma zip_fst from K items : (length K <= length items)%nat -> map fst (zip from K items) = map fst K.
Proof.
  unfold zip. revert from items; induction K as [|k K IH]; intros from [|d items] H; cbn in *; try reflexivity; try lia.
  f_equal. apply IH. lia.
Qed.
Lemma zip_snoc from K items i t d : nth_error items (length K) = Some d ->
  zip from (K ++ [(i, t)]) items = zip from K items ++ [(i, (from + Z.of_nat (length K), d))].
Proof.
  unfold zip. revert from items; induction K as [|k K IH]; intros from [|x items] H; cbn in H; try discriminate.
  - injection H as ->. cbn. rewrite Z.add_0_r. reflexivity.
  - cbn. f_equal. specialize (IH (from + 1) items H). cbn [map] in IH. rewrite IH. do 4 f_equal. lia.
Qed.
Lemma zip_items_app from K items more : (length K <= length items)%nat -> zip from K (items ++ more) = zip from K items.
Proof.
  unfold zip. revert from items; induction K as [|k K IH]; intros from [|x items] H; cbn in *; try reflexivity; try lia.
  f_equal. apply IH. lia.
Qed.
Lemma zip_items_firstn from K items n : (length K <= n)%nat -> zip from K (firstn n items) = zip from K items.
Proof.
  unfold zip. revert from items n; induction K as [|k K IH]; intros from [|x items] [|n] H; cbn in *; try reflexivity; try lia.
  f_equal. apply IH. lia.
Qed.
Lemma zip_firstn from K items n : zip from (firstn n K) (firstn n items) = firstn n (zip from K items).
Proof.
  unfold zip. revert from items n; induction K as [|k K IH]; intros from items n; cbn.
  - destruct n; reflexivity.
  - destruct n as [|n], items as [|x items]; cbn; try reflexivity. f_equal. apply IH.
Qed.
Lemma zip_skipn from K items n : (n <= length K)%nat -> (length K <= length items)%nat ->
  zip (from + Z.of_nat n) (skipn n K) (skipn n items) = skipn n (zip from K items).
Proof.
  unfold zip. revert from items n; induction K as [|k K IH]; intros from items n H1 H2; cbn in *.
  - replace n with O by lia. cbn. reflexivity.
  - destruct n as [|n], items as [|x items]; cbn in *; try lia.
    + rewrite Z.add_0_r. reflexivity.
    + rewrite <- (IH (from + 1) items n) by lia. f_equal. f_equal. lia.
Qed.
Lemma zip_nth from K items n i l d : nth_error (zip from K items) n = Some (i, (l, d)) ->
  l = from + Z.of_nat n /\ nth_error items n = Some d /\ exists t, nth_error K n = Some (i, t).
Proof.
  unfold zip. revert from items n; induction K as [|[a b] K IH]; intros from items n; cbn.
  - destruct n; discriminate.
  - destruct items as [|x items], n as [|n]; cbn; try discriminate.
    + intros [= -> <- ->]. split; [lia|]. eauto.
    + intro H. apply IH in H. destruct H as (-> & H2 & H3). split; [lia|auto].
Qed.
(** The records from a later lsn. *)
Lemma zip_later from K items from' : from <= from' -> (length K <= length items)%nat ->
  filter (fun x => from' <=? fst (snd x)) (zip from K items) =
  zip from' (skipn (Z.to_nat (from' - from)) K) (skipn (Z.to_nat (from' - from)) items).
Proof.
  intros H. unfold zip. revert from items H; induction K as [|k K IH]; intros from items H HL; cbn.
  - destruct (Z.to_nat (from' - from)); reflexivity.
  - destruct items as [|x items]; cbn in *; [lia|]. destruct (Z.leb_spec from' from).
    + replace from' with from by lia. rewrite Z.sub_diag. cbn. f_equal. apply filter_all. intros [i [l d]] HI.
      apply in_combine_r in HI. apply numz_in in HI. cbn. lia.
    + replace (Z.to_nat (from' - from)) with (S (Z.to_nat (from' - (from + 1)))) by lia. cbn. apply IH; lia.
Qed.

Lemma rec_get_numz from l lsn : rec_get lsn (numz from l) = if lsn <? from then None else nth_error l (Z.to_nat (lsn - from)).
Proof.
  revert from; induction l as [|x l IH]; intro from; cbn.
  - destruct (lsn <? from); [reflexivity|]. now destruct (Z.to_nat (lsn - from)).
  - rewrite IH. destruct (Z.eqb_spec from lsn).
    + subst. rewrite Z.ltb_irrefl, Z.sub_diag. reflexivity.
    + destruct (Z.ltb_spec lsn (from + 1)), (Z.ltb_spec lsn from); try lia; try reflexivity.
      replace (Z.to_nat (lsn - from)) with (S (Z.to_nat (lsn - (from + 1)))) by lia. reflexivity.
Qed.
Lemma rec_set_numz from l v r x : rec_set (from + Z.of_nat (length l)) v (numz from (l ++ x :: r)) = numz from (l ++ v :: r).
Proof.
  revert from; induction l as [|y l IH]; intro from; cbn [app numz rec_set length].
  - replace (from =? from + Z.of_nat 0) with true by lia. reflexivity.
  - replace (from =? from + Z.of_nat (S (length l))) with false by lia. f_equal.
    replace (from + Z.of_nat (S (length l))) with (from + 1 + Z.of_nat (length l)) by lia. apply IH.
Qed.
Lemma rec_set_end from l v : rec_set (from + Z.of_nat (length l)) v (numz from l) = numz from (l ++ [v]).
Proof.
  revert from; induction l as [|y l IH]; intro from; cbn [app numz rec_set length].
  - rewrite Z.add_0_r. reflexivity.
  - replace (from =? from + Z.of_nat (S (length l))) with false by lia. f_equal.
    replace (from + Z.of_nat (S (length l))) with (from + 1 + Z.of_nat (length l)) by lia. apply IH.
Qed.
Lemma rec_after_numz from l upto : from - 1 <= upto ->
  rec_after upto (numz from l) = numz (upto + 1) (skipn (Z.to_nat (upto + 1 - from)) l).
Proof.
  unfold rec_after. revert from; induction l as [|x l IH]; intros from H; cbn.
  - now destruct (Z.to_nat (upto + 1 - from)).
  - destruct (Z.ltb_spec upto from).
    + replace (upto + 1) with from by lia. rewrite Z.sub_diag. cbn. f_equal. apply filter_all. intros [j y] HJ. apply numz_in in HJ. cbn. lia.
    + replace (Z.to_nat (upto + 1 - from)) with (S (Z.to_nat (upto + 1 - (from + 1)))) by lia. cbn. apply IH. lia.
Qed.
Lemma rec_upto_numz from l to : from - 1 <= to ->
  rec_upto to (numz from l) = numz from (firstn (Z.to_nat (to + 1 - from)) l).
Proof.
  unfold rec_upto. revert from; induction l as [|x l IH]; intros from H; cbn.
  - now destruct (Z.to_nat (to + 1 - from)).
  - destruct (Z.leb_spec from to).
    + replace (Z.to_nat (to + 1 - from)) with (S (Z.to_nat (to + 1 - (from + 1)))) by lia. cbn. f_equal. apply IH. lia.
    + replace (Z.to_nat (to + 1 - from)) with O by lia. cbn. apply filter_none. intros [j y] HJ. apply numz_in in HJ. cbn. lia.
Qed.

(** ** Invariant *)
Definition grp (gs : list (Z * list entry)) (i t : Z) : Prop := exists l, In (t, l) gs /\ t <= i < t + Z.of_nat (length l).
Definition key_ok (gs : list (Z * list entry)) (start k : Z) : Prop := k = 0 \/ k < start \/ In k (map fst gs).

(** The memory of a store. [nx]: index of the next record to flush. *)
Definition memR (E : list (Z * entry)) rb (G : Z -> Z -> Prop) (kok : Z -> Prop) (nx : Z) (pend : list entry) (id : N) (st : store) (gl : glog) : Prop :=
  exists K, cont id (m_from gl) rb E = zip (m_from gl) K (m_items gl) /\
    (length K <= length (m_items gl))%nat /\
    pend_of id pend = numz (m_from gl + Z.of_nat (length K)) (skipn (length K) (m_items gl)) /\
    st = Store (m_from gl) (m_from gl + Z.of_nat (length (m_items gl))) (m_from gl + Z.of_nat (length K) - 1)
               (recs (m_from gl) K (length (m_items gl) - length K)) (s_trunc st) /\
    (forall p, In p K -> s_trunc st <= fst p /\ G (fst p) (snd p)) /\
    kok (s_trunc st) /\ s_trunc st <= nx.
(** What a crash leaves. *)
Definition diskR (E : list (Z * entry)) rb (sb : list (N * Z)) (pend : list entry) (id : N) (gl : glog) : Prop :=
  (exists K, length K = length (p_items gl) /\ cont id (p_from gl) rb E = zip (p_from gl) K (p_items gl)) /\
  find_id id sb = Some (p_from gl) /\ p_from gl <= m_from gl /\
  p_from gl + Z.of_nat (length (p_items gl)) + Z.of_nat (length (pend_of id pend)) = m_from gl + Z.of_nat (length (m_items gl)).

Definition erase (e : entry) : N * data := (fst (fst e), snd e).

Record base (w : world) (g : ghost) : Prop := {
  b_nd : NoDup (map fst (w_stores w));
  b_pend : map erase (w_pending w) = g_pend g;
  b_plive : forall e, In e (w_pending w) -> In (fst (fst e)) (map fst (w_stores w));
  b_start : 0 <= d_start (w_disk w);
  b_chain : chain (d_start (w_disk w)) (d_groups (w_disk w)) (w_flushed w + 1);
  b_ids : forall i e, In (i, e) (records (d_groups (w_disk w))) -> In (fst (fst e)) (map fst (d_sb (w_disk w)));
  b_sbnd : NoDup (map fst (d_sb (w_disk w)));
  b_sblive : forall id, In id (map fst (w_stores w)) -> In id (map fst (d_sb (w_disk w)));
  b_garb : forall m id, In (m, id) (w_garbage w) -> ~ In id (map fst (w_stores w)) /\ In id (map fst (d_sb (w_disk w))) /\
           forall i l d, In (i, (id, l, d)) (records (d_groups (w_disk w))) -> i <= m;
  b_gnd : NoDup (map snd (w_garbage w));
  b_rb : forall r, In r (d_rb (w_disk w)) -> snd (snd r) <= w_flushed w;
  b_empty : d_groups (w_disk w) = [] -> d_start (w_disk w) = 0;
  b_key : key_ok (d_groups (w_disk w)) (d_start (w_disk w)) (w_key w);
  b_last : w_lasttr w = d_start (w_disk w) \/ (w_lasttr w = -1 /\ d_start (w_disk w) = 0) }.

Definition allmem (w : world) (g : ghost) : Prop :=
  both (memR (records (d_groups (w_disk w))) (d_rb (w_disk w)) (grp (d_groups (w_disk w)))
             (key_ok (d_groups (w_disk w)) (d_start (w_disk w))) (w_flushed w + 1) (w_pending w)) (w_stores w) (g_live g).
Definition alldisk (w : world) (g : ghost) : Prop :=
  both (fun id (_ : store) gl => diskR (records (d_groups (w_disk w))) (d_rb (w_disk w)) (d_sb (w_disk w)) (w_pending w) id gl) (w_stores w) (g_live g).
Definition inv (w : world) (g : ghost) : Prop := base w g /\ allmem w g /\ alldisk w g.

Lemma on_way_pend id p gp : map erase p = gp -> length (pend_of id p) = on_way id gp.
Proof.
  intros <-. unfold pend_of, calls_of, on_way. rewrite map_length, filter_map, map_length. reflexivity.
Qed.
Lemma pend_of_app id a b : pend_of id (a ++ b) = pend_of id a ++ pend_of id b.
Proof. unfold pend_of, calls_of. now rewrite filter_app, map_app. Qed.
Lemma pend_of_none id p : ~ In id (map (fun e : entry => fst (fst e)) p) -> pend_of id p = [].
Proof.
  intro H. unfold pend_of, calls_of. rewrite filter_none; [reflexivity|]. intros [[s l] d] HI. cbn. destruct (N.eqb_spec s id); [|reflexivity].
  subst. destruct H. apply in_map_iff. exists (id, l, d). auto.
Qed.

Lemma rolled_none rb id idx b : (forall r, In r rb -> snd (snd r) <= b) -> b < idx -> is_rolled_back rb id idx = false.
Proof.
  intros H HB. unfold is_rolled_back. apply not_true_is_false. intro HE. apply existsb_exists in HE. destruct HE as (r & HI & HR).
  apply H in HI. lia.
Qed.

(** *** Completion of one record *)
Lemma mem_complete E rb G kok nx pend id lsn d st gl fkey :
  memR E rb G kok nx ((id, lsn, d) :: pend) id st gl ->
  is_rolled_back rb id nx = false -> G nx fkey ->
  exists st', complete st lsn nx fkey = Some st' /\
    memR (E ++ [(nx, (id, lsn, d))]) rb G kok (nx + 1) pend id st' (gl_durable d gl) /\
    lsn = m_from gl + Z.of_nat (length (m_items gl)) - Z.of_nat (length (pend_of id ((id, lsn, d) :: pend))).
Proof.
  intros (K & HC & HL & HP & HS & HK & HO & HN) HR HG.
  unfold pend_of, calls_of in HP. cbn [filter fst snd] in HP. rewrite N.eqb_refl in HP. cbn [map fst snd] in HP.
  fold (calls_of id pend) in HP. fold (pend_of id pend) in HP.
  destruct (skipn (length K) (m_items gl)) as [|d' rest] eqn:ES; [discriminate|]. cbn [numz] in HP. injection HP as HP1 HP2 HP3.
  subst d'. assert (HNth : nth_error (m_items gl) (length K) = Some d).
  { rewrite <- (firstn_skipn (length K) (m_items gl)), ES. rewrite nth_error_app2 by (rewrite firstn_length; lia).
    rewrite firstn_length, Nat.min_l, Nat.sub_diag by lia. reflexivity. }
  assert (HLL : (length K < length (m_items gl))%nat) by (apply nth_error_Some; congruence).
  exists (Store (m_from gl) (m_from gl + Z.of_nat (length (m_items gl))) lsn (recs (m_from gl) (K ++ [(nx, fkey)]) (length (m_items gl) - length K - 1)) (s_trunc st)).
  split; [|split].
  - unfold complete. rewrite HS. cbn [s_tail s_next s_start s_recs s_trunc]. replace (m_from gl + Z.of_nat (length K) - 1 <? lsn) with true by lia.
    f_equal. f_equal; [lia|]. unfold recs. replace (length (m_items gl) - length K)%nat with (S (length (m_items gl) - length K - 1)) at 1 by lia.
    cbn [repeat]. rewrite HP1. replace (length K) with (length (map (@Some (Z * Z)) K)) at 1 by apply map_length.
    rewrite rec_set_numz. rewrite map_app. cbn [map]. now rewrite <- app_assoc.
  - exists (K ++ [(nx, fkey)]). cbn [gl_durable m_from m_items s_trunc]. rewrite !app_length. cbn [length].
    split; [|split; [|split; [|split; [|split]]]].
    + rewrite cont_app, HC. rewrite (zip_snoc _ _ _ _ _ _ HNth). f_equal. unfold cont. cbn [filter]. unfold keep. cbn [fst snd].
      rewrite N.eqb_refl, HR. replace (m_from gl <=? lsn) with true by lia. cbn. unfold strip. cbn. rewrite HP1. reflexivity.
    + lia.
    + rewrite HP3. f_equal; [lia|]. rewrite <- (firstn_skipn (length K) (m_items gl)) at 1. rewrite ES.
      rewrite skipn_app, firstn_length. rewrite skipn_all2 by (rewrite firstn_length; lia).
      replace (length K + 1 - Nat.min (length K) (length (m_items gl)))%nat with 1%nat by lia. reflexivity.
    + f_equal; [lia|]. f_equal. lia.
    + intros p HI. apply in_app_or in HI. destruct HI as [HI|[<-|[]]]; [auto|]. cbn. split; [lia|assumption].
    + split; [assumption|lia].
  - unfold pend_of, calls_of. cbn [filter fst snd]. rewrite N.eqb_refl. cbn [map length]. fold (calls_of id pend). fold (pend_of id pend).
    rewrite HP3, numz_length. apply (f_equal (@length data)) in ES. rewrite skipn_length in ES. cbn [length] in ES. lia.
Qed.
Lemma mem_other E rb (G : Z -> Z -> Prop) (kok : Z -> Prop) nx pend e id st gl :
  memR E rb G kok nx (e :: pend) id st gl -> fst (fst e) <> id -> memR (E ++ [(nx, e)]) rb G kok (nx + 1) pend id st gl.
Proof.
  intros (K & HC & HL & HP & HS & HK & HO & HN) HE. exists K.
  assert (HF : (fst (fst e) =? id)%N = false) by (apply N.eqb_neq; assumption).
  unfold pend_of, calls_of in HP. cbn [filter] in HP. rewrite HF in HP.
  split; [|split; [|split; [|split; [|split; [|split]]]]]; try assumption.
  - rewrite cont_app, HC. unfold cont. cbn [filter]. unfold keep. cbn [fst snd]. rewrite HF. cbn. now rewrite app_nil_r.
  - lia.
Qed.
Lemma disk_complete E rb sb nx pend id lsn d gl :
  diskR E rb sb ((id, lsn, d) :: pend) id gl -> is_rolled_back rb id nx = false ->
  lsn = m_from gl + Z.of_nat (length (m_items gl)) - Z.of_nat (length (pend_of id ((id, lsn, d) :: pend))) ->
  diskR (E ++ [(nx, (id, lsn, d))]) rb sb pend id (gl_durable d gl).
Proof.
  intros ((K & HL & HC) & HS & HF & HN) HR HLS. unfold diskR. cbn [gl_durable p_from p_items m_from m_items].
  unfold pend_of, calls_of in HN, HLS. cbn [filter fst snd] in HN, HLS. rewrite N.eqb_refl in HN, HLS. cbn [map length] in HN, HLS.
  fold (calls_of id pend) in HN, HLS. fold (pend_of id pend) in HN, HLS.
  split; [|split; [assumption|split; [assumption|]]].
  - exists (K ++ [(nx, 0)]). rewrite !app_length. split; [cbn; lia|].
    rewrite cont_app, HC. rewrite (zip_snoc _ _ _ _ _ d).
    2:{ rewrite nth_error_app2 by lia. rewrite HL, Nat.sub_diag. reflexivity. }
    rewrite zip_items_app by lia. f_equal. unfold cont. cbn [filter]. unfold keep. cbn [fst snd].
    rewrite N.eqb_refl, HR. replace (p_from gl <=? lsn) with true by lia. cbn. unfold strip. cbn. do 3 f_equal. lia.
  - rewrite app_length. cbn [length]. lia.
Qed.
Lemma disk_other E rb sb nx pend e id gl :
  diskR E rb sb (e :: pend) id gl -> fst (fst e) <> id -> diskR (E ++ [(nx, e)]) rb sb pend id gl.
Proof.
  intros ((K & HL & HC) & HS & HF & HN) HE.
  assert (HB : (fst (fst e) =? id)%N = false) by (apply N.eqb_neq; assumption).
  unfold pend_of, calls_of in HN. cbn [filter] in HN. rewrite HB in HN.
  split; [|split; [assumption|split; assumption]]. exists K. split; [assumption|].
  rewrite cont_app, HC. unfold cont. cbn [filter]. unfold keep. cbn [fst snd]. rewrite HB. cbn. now rewrite app_nil_r.
Qed.

(** *** Flush *)
Lemma g_flush_cons k id d r l : g_flush (S k) (Ghost l ((id, d) :: r)) = g_flush k (Ghost (on_store id (gl_durable d) l) r).
Proof. reflexivity. Qed.
Lemma g_flush_add a b g : g_flush a (g_flush b g) = g_flush (b + a) g.
Proof. revert g; induction b as [|b IH]; intro g; cbn; [reflexivity|]. apply IH. Qed.
Lemma g_flush_pend k g : g_pend (g_flush k g) = skipn k (g_pend g).
Proof.
  revert g; induction k as [|k IH]; intros [l p]; [reflexivity|]. cbn [g_flush]. rewrite IH. destruct p as [|[id d] p]; cbn.
  - now destruct k.
  - reflexivity.
Qed.
Lemma g_flush_keys k g : map fst (g_live (g_flush k g)) = map fst (g_live g).
Proof.
  revert g; induction k as [|k IH]; intros [l p]; [reflexivity|]. cbn [g_flush]. rewrite IH. destruct p as [|[id d] p]; cbn; [reflexivity|].
  apply keys_on.
Qed.
(** A flush changes only what a crash leaves. *)
Lemma g_flush_mem k g id l : find_id id (g_live g) = Some l ->
  exists l', find_id id (g_live (g_flush k g)) = Some l' /\ m_from l' = m_from l /\ m_items l' = m_items l.
Proof.
  revert g l; induction k as [|k IH]; intros [gl p] l H; cbn [g_flush]; [eauto|].
  destruct p as [|[id' d] p]; [apply IH; exact H|]. unfold g_flush1. cbn [g_pend g_live] in *.
  destruct (N.eqb_spec id' id) as [->|HN].
  - destruct (IH (Ghost (on_store id (gl_durable d) gl) p) (gl_durable d l)) as (l' & H1 & H2 & H3).
    + cbn [g_live]. now apply find_on_eq.
    + exists l'. auto.
  - apply IH. cbn [g_live]. clear -H HN. induction gl as [|[k x] gl IHg]; cbn in *; [discriminate|].
    destruct (N.eqb_spec k id') as [->|]; cbn.
    + destruct (N.eqb_spec id' id); [contradiction|auto].
    + destruct (N.eqb_spec k id); auto.
Qed.

Lemma complete_batch rb (G : Z -> Z -> Prop) (kok : Z -> Prop) sb fkey (batch : list entry) : forall E nx (rest : list entry) (ss : list (N * store)) gl,
  NoDup (map fst ss) ->
  (forall r, In r rb -> snd (snd r) < nx) ->
  (forall e, In e batch -> In (fst (fst e)) (map fst ss)) ->
  (forall i, nx <= i < nx + Z.of_nat (length batch) -> G i fkey) ->
  both (memR E rb G kok nx (batch ++ rest)) ss gl ->
  both (fun id (_ : store) g => diskR E rb sb (batch ++ rest) id g) ss gl ->
  exists ss', complete_all fkey nx batch ss = Some ss' /\ map fst ss' = map fst ss /\
    let gl' := g_live (g_flush (length batch) (Ghost gl (map erase (batch ++ rest)))) in
    both (memR (E ++ numz nx batch) rb G kok (nx + Z.of_nat (length batch)) rest) ss' gl' /\
    both (fun id (_ : store) g => diskR (E ++ numz nx batch) rb sb rest id g) ss' gl'.
Proof.
  induction batch as [|[[id lsn] d] batch IH]; intros E nx rest ss gl ND HR HIn HG HM HD.
  - exists ss. cbn [complete_all length numz app g_flush g_live] in *. rewrite app_nil_r, Z.add_0_r. auto.
  - cbn [complete_all]. cbn [app] in HM, HD.
    destruct (find_id_some id ss (HIn (id, lsn, d) (or_introl eq_refl))) as [st HF]. rewrite HF.
    destruct (both_find _ _ _ _ _ HM HF) as (g1 & HG1 & HM1).
    destruct (both_find _ _ _ _ _ HD HF) as (g2 & HG2 & HD1). assert (g2 = g1) by congruence. subst g2.
    assert (HRB : is_rolled_back rb id nx = false).
    { apply (rolled_none rb id nx (nx - 1)); [|lia]. intros r Hr. apply HR in Hr. lia. }
    destruct (mem_complete _ _ _ _ _ _ _ _ _ _ _ fkey HM1 HRB) as (st' & HC & HM2 & HLS).
    { apply HG. cbn [length]. lia. }
    rewrite HC.
    assert (HM' : both (memR (E ++ [(nx, (id, lsn, d))]) rb G kok (nx + 1) (batch ++ rest)) (set_id id st' ss) (on_store id (gl_durable d) gl)).
    { apply (both_set _ _ _ _ _ _ _ ND HM).
      - intros k x y Hk Hx. apply mem_other; [exact Hx|]. cbn. auto.
      - intros y Hy. assert (y = g1) by congruence. subst. exact HM2. }
    assert (HD' : both (fun k (_ : store) g => diskR (E ++ [(nx, (id, lsn, d))]) rb sb (batch ++ rest) k g) (set_id id st' ss) (on_store id (gl_durable d) gl)).
    { apply (both_set _ (fun k (_ : store) g => diskR (E ++ [(nx, (id, lsn, d))]) rb sb (batch ++ rest) k g) _ _ _ _ _ ND HD).
      - intros k x y Hk Hx. apply disk_other; [exact Hx|]. cbn. auto.
      - intros y Hy. assert (y = g1) by congruence. subst. apply disk_complete; assumption. }
    destruct (IH (E ++ [(nx, (id, lsn, d))]) (nx + 1) rest (set_id id st' ss) (on_store id (gl_durable d) gl)) as (ss' & H1 & H2 & H3 & H4); try assumption.
    + rewrite keys_set. assumption.
    + intros r Hr. apply HR in Hr. lia.
    + intros e He. rewrite keys_set. apply HIn. now right.
    + intros i Hi. apply HG. cbn [length]. lia.
    + exists ss'. split; [exact H1|]. split; [rewrite H2; apply keys_set|].
      cbn [length map app erase fst snd numz]. unfold erase at 1 3. cbn [fst snd]. rewrite g_flush_cons.
      replace (nx + Z.of_nat (S (length batch))) with (nx + 1 + Z.of_nat (length batch)) by lia.
      rewrite <- app_assoc in H3, H4. cbn [app] in H3, H4. split; assumption.
Qed.

Lemma key_ok_more gs more start k : key_ok gs start k -> key_ok (gs ++ more) start k.
Proof. intros [H|[H|H]]; [now left|right; now left|right; right]. rewrite map_app. apply in_or_app. auto. Qed.
Lemma grp_more gs more i t : grp gs i t -> grp (gs ++ more) i t.
Proof. intros (l & H1 & H2). exists l. split; [apply in_or_app; auto|assumption]. Qed.
Lemma memR_mono E rb (G G' : Z -> Z -> Prop) (kok kok' : Z -> Prop) nx pend id st gl :
  (forall i t, G i t -> G' i t) -> (forall k, kok k -> kok' k) -> memR E rb G kok nx pend id st gl -> memR E rb G' kok' nx pend id st gl.
Proof.
  intros HG HK (K & H1 & H2 & H3 & H4 & H5 & H6 & H7). exists K. split; [assumption|split; [assumption|split; [assumption|split; [assumption|split; [|split; auto]]]]].
  intros p Hp. apply H5 in Hp. destruct Hp. auto.
Qed.

Lemma flush_group_inv w g k : inv w g -> (1 <= k <= length (w_pending w))%nat ->
  exists w', flush_group w k = Some w' /\ inv w' (g_flush k g) /\ w_pending w' = skipn k (w_pending w) /\
    map fst (w_stores w') = map fst (w_stores w) /\ d_sb (w_disk w') = d_sb (w_disk w).
Proof.
  intros (HB & HM & HD) HK. destruct HB. unfold flush_group.
  set (batch := firstn k (w_pending w)) in *. set (from := w_flushed w + 1) in *.
  assert (HLB : length batch = k) by (unfold batch; rewrite firstn_length; lia).
  assert (HBN : batch <> []) by (intro HE; rewrite HE in HLB; cbn in HLB; lia).
  assert (HSp : w_pending w = batch ++ skipn k (w_pending w)) by (symmetry; apply firstn_skipn).
  set (gs' := d_groups (w_disk w) ++ [(from, batch)]).
  assert (HREC : records gs' = records (d_groups (w_disk w)) ++ numz from batch).
  { unfold gs'. rewrite records_app. unfold records at 2. cbn. now rewrite app_nil_r. }
  destruct (complete_batch (d_rb (w_disk w)) (grp gs') (key_ok gs' (d_start (w_disk w))) (d_sb (w_disk w)) from batch
             (records (d_groups (w_disk w))) from (skipn k (w_pending w)) (w_stores w) (g_live g)) as (ss' & H1 & H2 & H3 & H4).
  - assumption.
  - intros r Hr. apply b_rb0 in Hr. unfold from. lia.
  - intros e He. apply b_plive0. rewrite HSp. apply in_or_app. auto.
  - intros i Hi. exists batch. split; [unfold gs'; apply in_or_app; right; now left|assumption].
  - rewrite <- HSp. eapply both_impl; [|exact HM]. intros id x y _ Hx. eapply memR_mono; [| |exact Hx].
    + intros; now apply grp_more.
    + intros; now apply key_ok_more.
  - rewrite <- HSp. exact HD.
  - rewrite H1. eexists. split; [reflexivity|].
    assert (HG : g_flush (length batch) (Ghost (g_live g) (map erase (batch ++ skipn k (w_pending w)))) = g_flush k g).
    { rewrite <- HSp, b_pend0, HLB. now destruct g. }
    rewrite HG in H3, H4. rewrite <- HREC in H3, H4. cbn [w_pending w_stores w_disk d_sb].
    split; [|auto]. split; [|split].
    + constructor; cbn [w_stores w_pending w_disk d_start d_groups d_sb d_rb w_garbage w_flushed w_key w_lasttr]; try assumption.
      * rewrite H2. assumption.
      * rewrite g_flush_pend, <- b_pend0. now rewrite skipn_map.
      * intros e He. rewrite H2. apply b_plive0. rewrite HSp. apply in_or_app. auto.
      * eapply chain_app; [exact b_chain0|]. cbn [chain]. fold from. split; [reflexivity|split; [assumption|]]. unfold from. lia.
      * intros i e He. fold gs' in He. rewrite HREC in He. apply in_app_or in He. destruct He as [He|He]; [eauto|].
        apply numz_in in He. destruct He as [_ He]. apply nth_error_In in He. apply b_sblive0. apply b_plive0. rewrite HSp. apply in_or_app. auto.
      * intros id Hid. apply b_sblive0. rewrite <- H2. exact Hid.
      * intros m id Hg. destruct (b_garb0 m id Hg) as (G1 & G2 & G3). split; [rewrite H2; assumption|split; [assumption|]].
        intros i l d He. fold gs' in He. rewrite HREC in He. apply in_app_or in He. destruct He as [He|He]; [eauto|].
        apply numz_in in He. destruct He as [_ He]. apply nth_error_In in He. destruct G1. apply (b_plive0 (id, l, d)). rewrite HSp. apply in_or_app. auto.
      * intros r Hr. apply b_rb0 in Hr. lia.
      * intro HE. fold gs' in HE. unfold gs' in HE. destruct (d_groups (w_disk w)); discriminate.
      * right. right. fold gs'. unfold gs'. rewrite map_app. apply in_or_app. right. now left.
    + unfold allmem. cbn [w_stores w_pending w_disk d_start d_groups d_sb d_rb w_flushed]. fold gs'.
      replace (w_flushed w + Z.of_nat (length batch) + 1) with (from + Z.of_nat (length batch)) by (unfold from; lia). exact H3.
    + unfold alldisk. cbn [w_stores w_pending w_disk d_start d_groups d_sb d_rb w_flushed]. fold gs'. exact H4.
Qed.

Lemma flush_loop_inv fuel : forall w g, inv w g -> (length (w_pending w) <= fuel)%nat ->
  exists w', flush_loop fuel w = Some w' /\ inv w' (g_flush (length (w_pending w)) g) /\ w_pending w' = [] /\
    map fst (w_stores w') = map fst (w_stores w) /\ d_sb (w_disk w') = d_sb (w_disk w).
Proof.
  induction fuel as [|fuel IH]; intros w g HI HL.
  - destruct (w_pending w) as [|e p] eqn:EP; [|cbn in HL; lia]. cbn [flush_loop]. rewrite EP. exists w. cbn [length g_flush]. auto.
  - cbn [flush_loop]. destruct (w_pending w) as [|e p] eqn:EP.
    + exists w. cbn [length g_flush]. auto.
    + rewrite <- EP in *. set (k := Nat.min batch_size (length (w_pending w))).
      assert (HP : length (w_pending w) = S (length p)) by (rewrite EP; reflexivity).
      destruct (flush_group_inv w g k HI) as (w1 & H1 & H2 & H3 & H4 & H5); [unfold k, batch_size; lia|].
      rewrite H1. destruct (IH w1 (g_flush k g) H2) as (w2 & I1 & I2 & I3 & I4 & I5).
      * rewrite H3, skipn_length. unfold k, batch_size. lia.
      * exists w2. split; [assumption|]. split; [|split; [assumption|split; congruence]].
        rewrite g_flush_add in I2. rewrite H3, skipn_length in I2.
        replace (k + (length (w_pending w) - k))%nat with (length (w_pending w)) in I2 by (unfold k; lia). exact I2.
Qed.
Lemma flush_inv w g : inv w g -> exists w', flush w = Some w' /\ inv w' (g_flush_all g) /\ w_pending w' = [] /\
    map fst (w_stores w') = map fst (w_stores w) /\ d_sb (w_disk w') = d_sb (w_disk w).
Proof.
  intro H. destruct (flush_loop_inv (length (w_pending w)) w g H (le_n _)) as (w' & H1 & H2 & H3). exists w'.
  split; [exact H1|]. split; [|exact H3]. unfold g_flush_all. destruct H as [HB _]. rewrite <- (b_pend _ _ HB), map_length. exact H2.
Qed.

(** *** Truncation of a store *)
Lemma mem_full E rb G kok nx pend id st gl : memR E rb G kok nx pend id st gl -> pend_of id pend = [] ->
  exists K, cont id (m_from gl) rb E = zip (m_from gl) K (m_items gl) /\ length K = length (m_items gl) /\
    st = Store (m_from gl) (m_from gl + Z.of_nat (length K)) (m_from gl + Z.of_nat (length K) - 1) (numz (m_from gl) (map Some K)) (s_trunc st) /\
    (forall p, In p K -> s_trunc st <= fst p /\ G (fst p) (snd p)) /\ kok (s_trunc st) /\ s_trunc st <= nx.
Proof.
  intros (K & H1 & H2 & H3 & H4 & H5 & H6 & H7) HP. rewrite HP in H3.
  assert (HL : length K = length (m_items gl)).
  { apply (f_equal (@length _)) in H3. rewrite numz_length, skipn_length in H3. cbn in H3. lia. }
  exists K. split; [assumption|split; [assumption|split; [|auto]]]. rewrite <- HL in H4. unfold recs in H4. rewrite Nat.sub_diag in H4. cbn in H4.
  rewrite app_nil_r in H4. exact H4.
Qed.
Lemma rec_after_set upto v l : (forall r, In r l -> fst r <= upto) -> rec_after upto (rec_set upto v l) = [].
Proof.
  intro H. unfold rec_after. apply filter_none. intros x HI. assert (HX : fst x <= upto); [|lia].
  clear -H HI. induction l as [|[k w] l IH]; cbn in *.
  - destruct HI as [<-|[]]. cbn. lia.
  - destruct (Z.eqb_spec k upto); cbn in HI.
    + destruct HI as [<-|HI]; [cbn; lia|]. apply H. auto.
    + destruct HI as [<-|HI]; [apply H; auto|]. apply IH; auto.
Qed.
Lemma srt_nth (l : list Z) n m x y : srt l -> nth_error l n = Some x -> nth_error l m = Some y -> (n < m)%nat -> x < y.
Proof.
  revert n m; induction l as [|a l IH]; intros [|n] [|m] H Hx Hy HL; cbn in *; try discriminate; try lia.
  - inversion_clear H. injection Hx as ->. rewrite Forall_forall in H1. apply H1. eapply nth_error_In; eauto.
  - inversion_clear H. apply (IH n m); auto. lia.
Qed.
Lemma records_srt w g : base w g -> srt (map fst (records (d_groups (w_disk w)))).
Proof. intros []. apply chain_records in b_chain0. destruct b_chain0 as [-> _]. apply numz_sorted. Qed.
Lemma records_bound w g i e : base w g -> In (i, e) (records (d_groups (w_disk w))) -> d_start (w_disk w) <= i <= w_flushed w.
Proof. intros [] HI. apply chain_records in b_chain0. destruct b_chain0 as [HR HE]. rewrite HR in HI. apply numz_in in HI. lia. Qed.
Lemma cont_K_srt w g id from K items : base w g -> (length K <= length items)%nat ->
  cont id from (d_rb (w_disk w)) (records (d_groups (w_disk w))) = zip from K items -> srt (map fst K).
Proof.
  intros HB HL HC. rewrite <- (zip_fst from K items HL), <- HC. apply cont_sorted. eapply records_srt; eauto.
Qed.
Lemma nth_error_skipn_ge {A} (l : list A) n x : In x (skipn n l) -> exists m, (n <= m)%nat /\ nth_error l m = Some x.
Proof.
  revert n; induction l as [|a l IH]; intros [|n] H; cbn in *; try tauto.
  - destruct H as [->|H]; [exists 0%nat; auto|]. apply In_nth_error in H. destruct H as [m H]. exists (S m). split; [lia|exact H].
  - apply IH in H. destruct H as (m & H1 & H2). exists (S m). split; [lia|exact H2].
Qed.

Lemma with_store_base w g id s g' : base w g -> In id (map fst (w_stores w)) -> g_pend g' = g_pend g -> base (with_store w id s) g'.
Proof.
  intros [] HI HP. constructor; cbn [with_store w_stores w_pending w_disk w_garbage w_flushed w_key w_lasttr]; try assumption.
  - now rewrite keys_set.
  - congruence.
  - intros e He. rewrite keys_set. auto.
  - intros k Hk. rewrite keys_set in Hk. auto.
  - intros m k Hk. rewrite keys_set. auto.
Qed.

Lemma truncate_mem_inv w g id upto l : inv w g -> find_id id (g_live g) = Some l -> m_from l <= upto ->
  exists w', truncate_mem w id upto = Some (w', true) /\ base w' (g_trunc id upto g) /\ allmem w' (g_trunc id upto g) /\
    (upto < next_lsn l -> alldisk w' (g_trunc id upto g)).
Proof.
  intros HI HL HU. unfold truncate_mem. destruct HI as (HB & HM & HD).
  destruct (both_find' _ _ _ _ _ HM HL) as (s0 & HS0 & HM0). rewrite HS0.
  assert (HST : s_start s0 = m_from l) by (destruct HM0 as (K & _ & _ & _ & -> & _); reflexivity).
  rewrite HST. replace (upto <? m_from l) with false by lia.
  destruct (flush_inv w g) as (w1 & HF & (HB1 & HM1 & HD1) & HP1 & HK1 & HSB1); [split; auto|]. rewrite HF.
  destruct (g_flush_mem (length (g_pend g)) g id l HL) as (l1 & HL1 & HLF & HLI). fold (g_flush_all g) in HL1.
  destruct (both_find' _ _ _ _ _ HM1 HL1) as (s & HS & HMS). rewrite HS.
  destruct (mem_full _ _ _ _ _ _ _ _ _ HMS) as (K & HC & HKL & HSS & HKP & HKO & HKN); [rewrite HP1; reflexivity|].
  rewrite HSS. cbn [s_tail s_next s_start s_recs s_trunc].
  set (n := Z.to_nat (upto + 1 - m_from l1)).
  assert (HIN : In id (map fst (w_stores w1))) by (eapply in_map with (f := fst) (x := (id, s)); apply find_id_in; exact HS).
  assert (HN1 : g_live (g_flush_all g) = g_live (g_flush_all g)) by reflexivity.
  (* the new store, whatever its truncation key *)
  assert (HGEN : forall t, (forall p, In p (skipn n K) -> t <= fst p) -> key_ok (d_groups (w_disk w1)) (d_start (w_disk w1)) t -> t <= w_flushed w1 + 1 ->
    let s' := Store (upto + 1) (Z.max (m_from l1 + Z.of_nat (length K)) (upto + 1)) (Z.max (m_from l1 + Z.of_nat (length K) - 1) upto) (numz (upto + 1) (skipn n (map Some K))) t in
    base (with_store w1 id s') (g_trunc id upto g) /\ allmem (with_store w1 id s') (g_trunc id upto g) /\
    (upto < next_lsn l -> alldisk (with_store w1 id s') (g_trunc id upto g))).
  { intros t HT1 HT2 HT3 s'. split; [|split].
    - eapply with_store_base; [exact HB1|assumption|reflexivity].
    - unfold allmem. cbn [with_store w_stores w_pending w_disk w_flushed g_trunc g_live].
      apply (both_set _ _ _ _ _ _ _ (b_nd _ _ HB1) HM1); [auto|].
      intros y Hy. assert (y = l1) by congruence. subst y. exists (skipn n K). cbn [gl_trunc m_from m_items]. fold n.
      rewrite !skipn_length. split; [|split; [|split; [|split; [|split]]]].
      + rewrite (cont_later id (m_from l1)) by lia. rewrite HC. rewrite zip_later by lia. reflexivity.
      + lia.
      + rewrite HP1. change (pend_of id []) with (@nil (Z * data)). rewrite skipn_all2 by (rewrite skipn_length; lia). reflexivity.
      + unfold s'. cbn [s_trunc]. f_equal; [lia|lia|]. unfold recs. replace (length (m_items l1) - n - (length K - n))%nat with O by lia. cbn.
        rewrite app_nil_r. now rewrite skipn_map.
      + intros p Hp. cbn [s_trunc]. split; [auto|]. apply HKP. rewrite <- (firstn_skipn n K). apply in_or_app. auto.
      + cbn [s_trunc]. auto.
    - intro HUN. unfold alldisk. cbn [with_store w_stores w_pending w_disk w_flushed g_trunc g_live].
      apply (both_set _ (fun k (_ : store) gl => diskR (records (d_groups (w_disk w1))) (d_rb (w_disk w1)) (d_sb (w_disk w1)) (w_pending w1) k gl) _ _ _ _ _ (b_nd _ _ HB1) HD1); [auto|].
      intros y Hy. destruct (both_find' _ _ _ _ _ HD1 Hy) as (_ & _ & (D1 & D2 & D3 & D4)). assert (y = l1) by congruence. subst y.
      split; [exact D1|split; [exact D2|split]]; cbn [gl_trunc m_from m_items p_from p_items].
      + lia.
      + rewrite D4, skipn_length. fold n. unfold next_lsn in HUN. rewrite <- HLF, <- HLI in HUN. lia. }
  destruct (Z.ltb_spec (m_from l1 + Z.of_nat (length K) - 1) upto) as [HT|HT].
  - assert (HSK : skipn n K = []) by (apply skipn_all2; lia).
    eexists. split; [reflexivity|].
    rewrite rec_after_set by (intros [j x] HJ; apply numz_in in HJ; rewrite map_length in HJ; cbn; lia).
    specialize (HGEN (s_trunc s)). cbv zeta in HGEN. rewrite skipn_map, HSK in HGEN. cbn [map numz] in HGEN.
    replace (Z.max (m_from l1 + Z.of_nat (length K) - 1) upto) with upto in HGEN by lia.
    apply HGEN; [intros p []|assumption|assumption].
  - rewrite rec_get_numz. replace (upto <? m_from l1) with false by lia. rewrite nth_error_map.
    destruct (nth_error K (Z.to_nat (upto - m_from l1))) as [[i t]|] eqn:EN.
    2:{ apply nth_error_None in EN. lia. }
    cbn [option_map]. eexists. split; [reflexivity|].
    assert (HIT : grp (d_groups (w_disk w1)) i t) by (apply (HKP (i, t)); eapply nth_error_In; eauto).
    destruct HIT as (lg & HG1 & HG2).
    rewrite rec_after_numz by lia. fold n.
    specialize (HGEN t). cbv zeta in HGEN. 
    replace (Z.max (m_from l1 + Z.of_nat (length K) - 1) upto) with (m_from l1 + Z.of_nat (length K) - 1) in HGEN by lia.
    replace (Z.max (m_from l1 + Z.of_nat (length K)) (upto + 1)) with (m_from l1 + Z.of_nat (length K)) in HGEN by lia.
    apply HGEN.
    + intros p Hp. apply nth_error_skipn_ge in Hp. destruct Hp as (m & Hm & Hp).
      assert (HSR : srt (map fst K)) by (eapply cont_K_srt; [exact HB1| |exact HC]; lia).
      assert (HLT : i < fst p); [|lia].
      apply (srt_nth (map fst K) (Z.to_nat (upto - m_from l1)) m); [assumption|rewrite nth_error_map, EN; reflexivity|rewrite nth_error_map, Hp; reflexivity|lia].
    + right. right. apply (in_map fst) in HG1. exact HG1.
    + apply (chain_in _ _ _ _ _ (b_chain _ _ HB1)) in HG1. lia.
Qed.

(** *** Truncation of the device *)
Lemma min_key_some ss m : min_key ss = Some m ->
  (forall id s, In (id, s) ss -> trunc_key s = None \/ m <= s_trunc s) /\ exists id s, In (id, s) ss /\ s_trunc s = m.
Proof.
  revert m; induction ss as [|[id s] ss IH]; intro m; cbn; [discriminate|]. unfold trunc_key at 1.
  destruct (Z.eqb_spec (s_start s - 1) (s_tail s)) as [HE|HE].
  - intro H. destruct (IH m H) as (H1 & id' & s' & H2 & H3). split; [|eauto 6].
    intros i x [[= <- <-]|HI]; [|eauto]. left. unfold trunc_key. destruct (Z.eqb_spec (s_start s - 1) (s_tail s)); [reflexivity|contradiction].
  - destruct (min_key ss) as [b|] eqn:EB.
    + intros [= <-]. destruct (IH b eq_refl) as (H1 & id' & s' & H2 & H3). split.
      * intros i x [[= <- <-]|HI]; [right; lia|]. destruct (H1 i x HI); [auto|right; lia].
      * destruct (Z.min_spec (s_trunc s) b) as [[_ ->]|[_ ->]]; eauto 6.
    + intros [= <-]. split; [|eauto 6]. intros i x [[= <- <-]|HI]; [right; lia|]. left.
      clear -EB HI. induction ss as [|[k y] ss IH]; cbn in *; [tauto|]. destruct (trunc_key y) eqn:EY.
      * destruct (min_key ss); discriminate.
      * destruct HI as [[= <- <-]|HI]; auto.
Qed.
Lemma min_key_none ss : min_key ss = None -> forall id s, In (id, s) ss -> trunc_key s = None.
Proof.
  induction ss as [|[k y] ss IH]; cbn; [tauto|]. intros H id s HI. destruct (trunc_key y) eqn:EY.
  - destruct (min_key ss); discriminate.
  - destruct HI as [[= <- <-]|HI]; eauto.
Qed.

Lemma keys_save ss sb : map fst (save_starts ss sb) = map fst sb.
Proof. unfold save_starts. rewrite map_map. apply map_ext. intros [k x]; cbn. now destruct (find_id k ss). Qed.
Lemma find_save ss sb id s : find_id id ss = Some s -> In id (map fst sb) -> find_id id (save_starts ss sb) = Some (s_start s).
Proof.
  intro HF. induction sb as [|[k x] sb IH]; cbn; [tauto|]. intros HI. destruct (N.eqb_spec k id) as [->|HN].
  - rewrite HF. cbn. now rewrite N.eqb_refl.
  - destruct (find_id k ss); cbn; (destruct (N.eqb_spec k id); [contradiction|]); (destruct HI; [contradiction|auto]).
Qed.
Lemma find_filter {A} id (f : N * A -> bool) l x : find_id id l = Some x -> (forall y, f (id, y) = true) -> find_id id (filter f l) = Some x.
Proof.
  intros H HF. induction l as [|[k y] l IH]; cbn in *; [discriminate|]. destruct (N.eqb_spec k id) as [->|].
  - rewrite HF. cbn. now rewrite N.eqb_refl.
  - destruct (f (k, y)); cbn; [destruct (N.eqb_spec k id); [contradiction|]|]; auto.
Qed.
Lemma mem_id_in id l : mem_id id l = true <-> In id l.
Proof.
  unfold mem_id. rewrite existsb_exists. split.
  - intros (x & H & HE). apply N.eqb_eq in HE. now subst.
  - intro H. exists id. now rewrite N.eqb_refl.
Qed.
Lemma NoDup_map_filter {A} (f : N * A -> bool) l : NoDup (map fst l) -> NoDup (map fst (filter f l)).
Proof.
  induction l as [|x l IH]; cbn; [auto|]. intro H. inversion_clear H. destruct (f x); cbn; auto. constructor; auto.
  intro HI. apply H0. apply in_map_iff in HI. destruct HI as (y & <- & HY). apply filter_In in HY. now apply in_map.
Qed.

Lemma cut_facts w g t : base w g -> allmem w g -> cut_point w = Some t ->
  In t (map fst (d_groups (w_disk w))) /\ d_start (w_disk w) < t /\
  forall id s, In (id, s) (w_stores w) -> trunc_key s = None \/ t <= s_trunc s.
Proof.
  intros HB HM HC. unfold cut_point in HC.
  set (m := match min_key (w_stores w) with Some t => t | None => w_key w end) in HC.
  destruct ((m <=? 0) || (m <=? w_lasttr w)) eqn:EM; [discriminate|]. injection HC as HC. apply orb_false_elim in EM. destruct EM as [E1 E2].
  assert (HMK : key_ok (d_groups (w_disk w)) (d_start (w_disk w)) m /\ forall id s, In (id, s) (w_stores w) -> trunc_key s = None \/ m <= s_trunc s).
  { subst m. destruct (min_key (w_stores w)) as [m|] eqn:EK.
    - apply min_key_some in EK. destruct EK as (H1 & id & s & H2 & H3). split; [|exact H1].
      apply (in_find_id _ _ _ (b_nd _ _ HB)) in H2. destruct (both_find _ _ _ _ _ HM H2) as (y & _ & K & _ & _ & _ & _ & _ & HK & _).
      rewrite <- H3. exact HK.
    - split; [apply (b_key _ _ HB)|]. intros id s HI. left. eapply min_key_none; eauto. }
  destruct HMK as [HK1 HK2]. rewrite HC in *. clear m HC. pose proof (b_last _ _ HB). pose proof (b_start _ _ HB).
  assert (d_start (w_disk w) < t) by lia. split; [|split; assumption].
  destruct HK1 as [H2|[H2|H2]]; [lia|lia|assumption].
Qed.

Lemma snd_inj {A} (l : list (A * N)) a b id : NoDup (map snd l) -> In (a, id) l -> In (b, id) l -> a = b.
Proof.
  induction l as [|[c k] l IH]; cbn; [tauto|]. intro H. inversion_clear H. intros [H2|H2] [H3|H3].
  - congruence.
  - injection H2 as -> ->. destruct H0. now apply (in_map snd) in H3.
  - injection H3 as -> ->. destruct H0. now apply (in_map snd) in H2.
  - auto.
Qed.
Lemma NoDup_snd_filter {A} (f : A * N -> bool) l : NoDup (map snd l) -> NoDup (map snd (filter f l)).
Proof.
  induction l as [|x l IH]; cbn; [auto|]. intro H. inversion_clear H. destruct (f x); cbn; auto. constructor; auto.
  intro HI. apply H0. apply in_map_iff in HI. destruct HI as (y & <- & HY). apply filter_In in HY. now apply in_map.
Qed.
Lemma sync_disk E rb sb pend id gl (st : store) n K :
  cont id (m_from gl) rb E = zip (m_from gl) K (m_items gl) -> (length K <= length (m_items gl))%nat ->
  pend_of id pend = numz (m_from gl + Z.of_nat (length K)) (skipn (length K) (m_items gl)) ->
  length (pend_of id pend) = n -> find_id id sb = Some (s_start st) -> s_start st = m_from gl ->
  diskR E rb sb pend id (gl_sync n gl).
Proof.
  intros HC HL HP HN HS HST. rewrite HP, numz_length, skipn_length in HN.
  assert (HKL : (length (m_items gl) - n)%nat = length K) by lia.
  unfold diskR. cbn [gl_sync p_from p_items m_from m_items]. rewrite HKL. rewrite firstn_length, Nat.min_l by lia. split; [|split; [congruence|split; [lia|]]].
  - exists K. split; [reflexivity|]. rewrite zip_items_firstn by lia. exact HC.
  - rewrite HP, numz_length, skipn_length. lia.
Qed.

Lemma truncate_inv w g : base w g -> allmem w g -> cut_clean w -> inv (truncate w) (g_sync g).
Proof.
  intros HB HM HCC. unfold truncate. destruct (cut_point w) as [t|] eqn:ECP.
  - destruct (cut_facts w g t HB HM ECP) as (HTG & HTS & HTK).
    specialize (HCC t). 
    destruct (chain_cut _ _ _ _ (b_chain _ _ HB) HTG) as [HCH HREC].
    set (E := records (d_groups (w_disk w))) in *. set (gs' := filter (fun g => t <=? fst g) (d_groups (w_disk w))) in *.
    set (free := map snd (filter (fun g : Z * N => fst g <=? t) (w_garbage w))).
    assert (HFREE : forall id, In id free -> ~ In id (map fst (w_stores w)) /\ forall i l d, In (i, (id, l, d)) E -> i <= t).
    { intros id HI. apply in_map_iff in HI. destruct HI as ([m id'] & HS & HI). cbn in HS. subst id'. apply filter_In in HI. destruct HI as [HI HL]. cbn in HL.
      destruct (b_garb _ _ HB m id HI) as (G1 & G2 & G3). split; [assumption|]. intros i l d He. apply G3 in He. lia. }
    set (rb' := filter (fun r : N * (Z * Z) => t <? snd (snd r)) (filter (fun r => negb (mem_id (fst r) free)) (d_rb (w_disk w)))).
    assert (HROLL : forall id i l d, In id (map fst (w_stores w)) -> t <= i -> In (i, (id, l, d)) E -> is_rolled_back rb' id i = is_rolled_back (d_rb (w_disk w)) id i).
    { intros id i l d HL HT HIE. apply eq_true_iff_eq. unfold is_rolled_back. rewrite !existsb_exists. split.
      - intros (r & HI & HR). apply filter_In in HI. destruct HI as [HI _]. apply filter_In in HI. destruct HI as [HI _]. eauto.
      - intros (r & HI & HR). exists r. split; [|exact HR].
        assert (HRI : fst r = id) by lia.
        assert (HRT : t < snd (snd r)).
        { destruct (Z.eq_dec (snd (snd r)) t) as [HEq|]; [|lia]. assert (i = t) by lia. subst i.
          destruct (HCC id l d ECP HIE) as [_ HF]. exfalso. unfold is_rolled_back in HF. apply not_true_iff_false in HF. apply HF. apply existsb_exists. exists r. split; [exact HI|exact HR]. }
        apply filter_In. split; [|lia]. apply filter_In. split; [exact HI|]. apply negb_true_iff. apply not_true_is_false. intro HME. apply mem_id_in in HME.
        apply HFREE in HME. rewrite HRI in HME. tauto. }
    assert (HCONT : forall id from K items, In id (map fst (w_stores w)) -> (length K <= length items)%nat -> (forall p, In p K -> t <= fst p) ->
       cont id from (d_rb (w_disk w)) E = zip from K items -> cont id from rb' (records gs') = zip from K items).
    { intros id from K items HL HLen HK HC. rewrite <- HC. rewrite HREC. unfold cont. rewrite filter_filter. f_equal. apply filter_ext_in. intros [i [[s l] d]] HI.
      cbn [fst]. unfold keep. cbn [fst snd]. destruct (N.eqb_spec s id) as [->|]; [|cbn; lia]. destruct (Z.leb_spec from l); [|cbn; lia].
      destruct (Z.leb_spec t i).
      - rewrite (HROLL id i l d); auto.
      - cbn. symmetry. apply negb_false_iff. apply not_false_is_true. intro HNR.
        assert (HIC : In (i, (l, d)) (zip from K items)) by (rewrite <- HC; apply cont_in; auto).
        apply (in_map fst) in HIC. rewrite zip_fst in HIC by assumption. apply in_map_iff in HIC. destruct HIC as (p & HP & HIP). apply HK in HIP. cbn in HP. lia. }
    assert (HKO : forall k, key_ok (d_groups (w_disk w)) (d_start (w_disk w)) k -> key_ok gs' t k).
    { intros k [H|[H|H]]; [now left|right; left; lia|]. destruct (Z.ltb_spec k t); [right; now left|]. right. right. unfold gs'.
      apply in_map_iff in H. destruct H as ([f l] & HF & HI). cbn in HF. subst f. apply in_map_iff. exists (k, l). split; [reflexivity|]. apply filter_In. split; [assumption|]. cbn. lia. }
    assert (HMEM : forall id st gl, In (id, st) (w_stores w) -> memR E (d_rb (w_disk w)) (grp (d_groups (w_disk w))) (key_ok (d_groups (w_disk w)) (d_start (w_disk w))) (w_flushed w + 1) (w_pending w) id st gl ->
       exists K, cont id (m_from gl) rb' (records gs') = zip (m_from gl) K (m_items gl) /\
       (length K <= length (m_items gl))%nat /\
       pend_of id (w_pending w) = numz (m_from gl + Z.of_nat (length K)) (skipn (length K) (m_items gl)) /\
       st = Store (m_from gl) (m_from gl + Z.of_nat (length (m_items gl))) (m_from gl + Z.of_nat (length K) - 1)
               (recs (m_from gl) K (length (m_items gl) - length K)) (s_trunc st) /\
       (forall p, In p K -> s_trunc st <= fst p /\ grp gs' (fst p) (snd p)) /\ key_ok gs' t (s_trunc st) /\ s_trunc st <= w_flushed w + 1).
    { intros id st gl HIn (K & HC & HLen & HP & HS & HK & HO & HN). exists K.
      assert (HKT : forall p, In p K -> t <= s_trunc st).
      { intros p Hp. destruct (HTK id st HIn) as [HT|HT]; [|exact HT]. unfold trunc_key in HT. rewrite HS in HT. cbn [s_start s_tail] in HT.
        destruct K; [destruct Hp|]. cbn [length] in HT. replace (m_from gl - 1 =? m_from gl + Z.of_nat (S (length K)) - 1) with false in HT by lia. discriminate. }
      split; [|split; [assumption|split; [assumption|split; [assumption|split; [|split; [auto|assumption]]]]]].
      - apply HCONT; auto; [now apply (in_map fst) in HIn|]. intros p Hp. specialize (HKT p Hp). apply HK in Hp. lia.
      - intros p Hp. specialize (HKT p Hp). destruct (HK p Hp) as [H1 (lg & H2 & H3)]. split; [assumption|]. exists lg. split; [|assumption].
        unfold gs'. apply filter_In. split; [assumption|]. cbn.
        (* the group of p starts at or after t, as t is the start of a group *)
        destruct (Z.leb_spec t (snd p)); [reflexivity|].
        assert (HIT : In (snd p, lg) (d_groups (w_disk w))) by assumption.
        apply in_map_iff in HTG. destruct HTG as ([t' lt] & HT' & HTI). cbn in HT'. subst t'.
        pose proof (chain_in _ _ _ _ _ (b_chain _ _ HB) HTI) as (_ & _ & HLT).
        exfalso. clear -HIT HTI H3 H HLT HB HKT H1. pose proof (b_chain _ _ HB) as HCH. revert HCH HIT HTI. generalize (d_start (w_disk w)), (w_flushed w + 1). induction (d_groups (w_disk w)) as [|[f l] gs IH]; intros a b HCH HIT HTI; [destruct HIT|].
        cbn [chain] in HCH. destruct HCH as (-> & HL & HCH). destruct HIT as [[= E1 E2]|HIT], HTI as [[= E3 E4]|HTI].
        + lia.
        + subst. apply (chain_in _ _ _ _ _ HCH) in HTI. lia.
        + subst. apply (chain_in _ _ _ _ _ HCH) in HIT. destruct lt; [contradiction|]. cbn in HIT. lia.
        + eapply IH; eauto. }
    split; [|split].
    + constructor; cbn [w_stores w_pending w_disk d_start d_groups d_sb d_rb w_garbage w_flushed w_key w_lasttr g_sync g_pend]; fold gs'; fold free; try fold rb'.
      * apply (b_nd _ _ HB).
      * apply (b_pend _ _ HB).
      * apply (b_plive _ _ HB).
      * pose proof (b_start _ _ HB). lia.
      * exact HCH.
      * intros i [[id l] d] HI. cbn [fst]. rewrite HREC in HI. apply filter_In in HI. destruct HI as [HI HT]. cbn in HT.
        pose proof (b_ids _ _ HB _ _ HI) as HSB. cbn in HSB. rewrite <- (keys_save (w_stores w)) in HSB. apply in_map_iff in HSB. destruct HSB as ([k x] & HKX & HSB). cbn in HKX. subst k.
        apply in_map_iff. exists (id, x). split; [reflexivity|]. apply filter_In. split; [assumption|]. cbn. apply negb_true_iff. apply not_true_is_false. intro HF. apply mem_id_in in HF.
        destruct (HFREE _ HF) as [F1 F2]. specialize (F2 _ _ _ HI). assert (i = t) by lia. subst i. destruct (HCC id l d ECP HI). contradiction.
      * apply NoDup_map_filter. rewrite keys_save. apply (b_sbnd _ _ HB).
      * intros id HI. pose proof (b_sblive _ _ HB _ HI) as HSB. rewrite <- (keys_save (w_stores w)) in HSB. apply in_map_iff in HSB. destruct HSB as ([k x] & HKX & HSB). cbn in HKX. subst k.
        apply in_map_iff. exists (id, x). split; [reflexivity|]. apply filter_In. split; [assumption|]. cbn. apply negb_true_iff. apply not_true_is_false. intro HF. apply mem_id_in in HF.
        destruct (HFREE _ HF). contradiction.
      * intros m id HI. apply filter_In in HI. destruct HI as [HI HT]. cbn in HT. destruct (b_garb _ _ HB m id HI) as (G1 & G2 & G3). split; [assumption|split].
        -- rewrite <- (keys_save (w_stores w)) in G2. apply in_map_iff in G2. destruct G2 as ([k x] & HKX & G2). cbn in HKX. subst k.
           apply in_map_iff. exists (id, x). split; [reflexivity|]. apply filter_In. split; [assumption|]. cbn. apply negb_true_iff. apply not_true_is_false. intro HF. apply mem_id_in in HF.
           apply in_map_iff in HF. destruct HF as ([m' id'] & HS & HF). cbn in HS. subst id'. apply filter_In in HF. destruct HF as [HF HT']. cbn in HT'.
           assert (m' = m) by (eapply snd_inj; [apply (b_gnd _ _ HB)|exact HF|exact HI]). lia.
        -- intros i l d He. rewrite HREC in He. apply filter_In in He. destruct He as [He _]. eauto.
      * apply NoDup_snd_filter. apply (b_gnd _ _ HB).
      * intros r Hr. apply filter_In in Hr. destruct Hr as [Hr _]. apply filter_In in Hr. destruct Hr as [Hr _]. apply (b_rb _ _ HB _ Hr).
      * intro HE. exfalso. apply in_map_iff in HTG. destruct HTG as ([t' lt] & HT' & HTI). cbn in HT'. subst t'.
        assert (HI : In (t, lt) gs') by (unfold gs'; apply filter_In; split; [assumption|cbn; lia]). rewrite HE in HI. destruct HI.
      * apply HKO. apply (b_key _ _ HB).
      * now left.
    + unfold allmem. cbn [w_stores w_pending w_disk d_start d_groups d_sb d_rb w_flushed g_sync g_live].
      eapply (both_map_r _ _ _ _ (fun id y => gl_sync (on_way id (g_pend g)) y)); [exact HM|]. intros id x y HF HX. fold gs' free rb'. destruct (HMEM id x y HF HX) as (K & HK). exists K. exact HK.
    + unfold alldisk. cbn [w_stores w_pending w_disk d_start d_groups d_sb d_rb w_flushed g_sync g_live].
      apply (both_map_r (fun id x y => memR E (d_rb (w_disk w)) (grp (d_groups (w_disk w))) (key_ok (d_groups (w_disk w)) (d_start (w_disk w))) (w_flushed w + 1) (w_pending w) id x y) _ _ _ (fun id y => gl_sync (on_way id (g_pend g)) y) HM).
      intros id x y HF HX. fold gs' free rb'. destruct (HMEM id x y HF HX) as (K & HC & HLen & HP & HS & _).
      apply (sync_disk _ _ _ _ _ _ x _ K HC HLen HP (on_way_pend id _ _ (b_pend _ _ HB))); [|now rewrite HS].
      apply find_filter.
      * apply find_save; [apply in_find_id; [apply (b_nd _ _ HB)|assumption]|]. apply (b_sblive _ _ HB). now apply (in_map fst) in HF.
      * intro z. cbn. apply negb_true_iff. apply not_true_is_false. intro HFR. apply mem_id_in in HFR. apply HFREE in HFR. destruct HFR as [HFR _].
        apply HFR. now apply (in_map fst) in HF.
  - split; [|split].
    + constructor; cbn [w_stores w_pending w_disk d_start d_groups d_sb d_rb w_garbage w_flushed w_key w_lasttr g_sync g_pend]; try rewrite keys_save; try apply HB.
    + unfold allmem. cbn [w_stores w_pending w_disk d_start d_groups d_sb d_rb w_flushed g_sync g_live].
      eapply (both_map_r _ _ _ _ (fun id y => gl_sync (on_way id (g_pend g)) y)); [exact HM|]. intros id x y HF HX. exact HX.
    + unfold alldisk. cbn [w_stores w_pending w_disk d_start d_groups d_sb d_rb w_flushed g_sync g_live].
      eapply (both_map_r _ _ _ _ (fun id y => gl_sync (on_way id (g_pend g)) y)); [exact HM|]. intros id x y HF HX. cbv beta. destruct HX as (K & HC & HLen & HP & HS & _).
      apply (sync_disk _ _ _ _ _ _ x _ K HC HLen HP (on_way_pend id _ _ (b_pend _ _ HB))); [|now rewrite HS].
      apply find_save; [apply in_find_id; [apply (b_nd _ _ HB)|assumption]|]. apply (b_sblive _ _ HB). now apply (in_map fst) in HF.
Qed.

(** *** Append, create, remove *)
Lemma append_inv w g id d l : inv w g -> find_id id (g_live g) = Some l ->
  exists w', append w id d = Some (w', next_lsn l) /\ inv w' (gstep g (OAppend id d)).
Proof.
  intros (HB & HM & HD) HL. unfold append. destruct (both_find' _ _ _ _ _ HM HL) as (s & HS & HMS). rewrite HS.
  destruct HMS as (K & HC & HLen & HP & HSS & HK & HO & HN).
  assert (HNX : s_next s = next_lsn l) by (rewrite HSS; reflexivity). rewrite HNX.
  eexists. split; [reflexivity|]. cbn [gstep].
  assert (HIN : In id (map fst (w_stores w))) by (eapply in_map with (f := fst) (x := (id, s)); apply find_id_in; exact HS).
  split; [|split].
  - destruct HB. constructor; cbn [w_stores w_pending w_disk w_garbage w_flushed w_key w_lasttr g_pend]; try assumption.
    + now rewrite keys_set.
    + rewrite map_app, b_pend0. reflexivity.
    + intros e He. rewrite keys_set. apply in_app_or in He. destruct He as [He|[<-|[]]]; [auto|]. cbn. assumption.
    + intros k Hk. rewrite keys_set in Hk. auto.
    + intros m k Hk. rewrite keys_set. auto.
  - unfold allmem. cbn [w_stores w_pending w_disk w_flushed g_live]. apply (both_set _ _ _ _ _ _ _ (b_nd _ _ HB) HM).
    + intros k x y Hk (K' & HX). exists K'. rewrite pend_of_app. unfold pend_of at 2, calls_of. cbn [filter fst snd].
      destruct (N.eqb_spec id k); [congruence|]. cbn [map]. rewrite app_nil_r. exact HX.
    + intros y Hy. assert (y = l) by congruence. subst y. exists K. cbn [gl_append m_from m_items s_trunc]. rewrite !app_length. cbn [length].
      split; [|split; [|split; [|split; [|split]]]].
      * rewrite zip_items_app by lia. exact HC.
      * lia.
      * rewrite pend_of_app, HP. unfold pend_of, calls_of. cbn [filter fst snd]. rewrite N.eqb_refl. cbn [map].
        rewrite skipn_app. replace (length K - length (m_items l))%nat with O by lia. cbn [skipn].
        rewrite numz_app. cbn [numz fst snd]. rewrite skipn_length. do 3 f_equal. unfold next_lsn. lia.
      * rewrite HSS. cbn [s_start s_tail s_recs s_trunc]. unfold next_lsn. f_equal; [lia|]. unfold recs.
        replace (length (m_items l) + 1 - length K)%nat with (length (m_items l) - length K + 1)%nat by lia. rewrite repeat_app. cbn [repeat].
        rewrite app_assoc. rewrite <- rec_set_end. f_equal. rewrite app_length, map_length, repeat_length. lia.
      * exact HK.
      * auto.
  - unfold alldisk. cbn [w_stores w_pending w_disk w_flushed g_live].
    apply (both_set _ (fun k (_ : store) gl => diskR (records (d_groups (w_disk w))) (d_rb (w_disk w)) (d_sb (w_disk w)) (w_pending w ++ [(id, next_lsn l, d)]) k gl) _ _ _ _ _ (b_nd _ _ HB) HD).
    + intros k x y Hk (H1 & H2 & H3 & H4). split; [exact H1|split; [exact H2|split; [exact H3|]]]. rewrite pend_of_app. unfold pend_of at 2, calls_of. cbn [filter fst snd].
      destruct (N.eqb_spec id k); [congruence|]. cbn [map]. rewrite app_nil_r. exact H4.
    + intros y Hy. destruct (both_find' _ _ _ _ _ HD Hy) as (_ & _ & (D1 & D2 & D3 & D4)). split; [exact D1|split; [exact D2|split; [exact D3|]]].
      rewrite pend_of_app. unfold pend_of at 2, calls_of. cbn [filter fst snd]. rewrite N.eqb_refl. cbn [map]. rewrite app_length.
      cbn [gl_append p_from p_items m_from m_items length]. rewrite app_length. cbn [length]. lia.
Qed.

Lemma both_app {A B} (P : N -> A -> B -> Prop) a b c d : both P a b -> both P c d -> both P (a ++ c) (b ++ d).
Proof. apply Forall2_app. Qed.
Lemma find_app_l {A} id (l r : list (N * A)) x : find_id id l = Some x -> find_id id (l ++ r) = Some x.
Proof. induction l as [|[k y] l IH]; cbn; [discriminate|]. now destruct (k =? id)%N. Qed.
Lemma find_app_r {A} id (l r : list (N * A)) : find_id id l = None -> find_id id (l ++ r) = find_id id r.
Proof. induction l as [|[k y] l IH]; cbn; [reflexivity|]. now destruct (k =? id)%N. Qed.

Lemma create_inv w g id : inv w g -> find_id id (d_sb (w_disk w)) = None -> inv (create_store w id) (gstep g (OCreate id)).
Proof.
  intros (HB & HM & HD) HN. pose proof HN as HNI. apply find_id_none in HNI.
  assert (HNL : ~ In id (map fst (w_stores w))) by (intro H; apply HNI; apply (b_sblive _ _ HB); assumption).
  assert (HNE : forall from, cont id from (d_rb (w_disk w)) (records (d_groups (w_disk w))) = []).
  { intro from. unfold cont. rewrite filter_none; [reflexivity|]. intros [i [[s l] d]] HI. unfold keep. cbn. destruct (N.eqb_spec s id); [|reflexivity].
    subst. apply (b_ids _ _ HB) in HI. contradiction. }
  assert (HNP : pend_of id (w_pending w) = []).
  { apply pend_of_none. intro HI. apply in_map_iff in HI. destruct HI as (e & <- & HI). apply HNL. apply (b_plive _ _ HB). assumption. }
  pose proof (b_start _ _ HB) as HST. pose proof (proj2 (chain_records _ _ _ (b_chain _ _ HB))) as HNX.
  unfold create_store. cbn [gstep]. split; [|split].
  - destruct HB. constructor; cbn [w_stores w_pending w_disk d_groups d_start d_sb d_rb w_garbage w_flushed w_key w_lasttr g_pend]; try assumption.
    + rewrite map_app. cbn. apply NoDup_app; [assumption|repeat constructor; tauto|]. intros x Hx [<-|[]]. contradiction.
    + intros e He. rewrite map_app. apply in_or_app. auto.
    + intros i e He. rewrite map_app. apply in_or_app. eauto.
    + rewrite map_app. cbn. apply NoDup_app; [assumption|repeat constructor; tauto|]. intros x Hx [<-|[]]. contradiction.
    + intros k Hk. rewrite map_app in *. apply in_or_app. apply in_app_or in Hk. destruct Hk as [Hk|Hk]; auto.
    + intros m k Hk. destruct (b_garb0 m k Hk) as (G1 & G2 & G3). rewrite !map_app. split; [|split; [apply in_or_app; auto|assumption]].
      intro HI. apply in_app_or in HI. destruct HI as [HI|[HI|[]]]; [contradiction|]. cbn in HI. subst k. contradiction.
  - unfold allmem. cbn [w_stores w_pending w_disk d_groups d_start d_sb d_rb w_flushed g_live]. apply both_app; [exact HM|]. constructor; [|constructor]. cbn. split; [reflexivity|].
    exists []. cbn [m_from m_items length]. rewrite HNE, HNP. split; [reflexivity|split; [lia|split; [reflexivity|split; [reflexivity|split; [intros p []|split]]]]].
    + now left.
    + unfold new_store. cbn [s_trunc]. lia.
  - unfold alldisk. cbn [w_stores w_pending w_disk d_groups d_start d_sb d_rb w_flushed g_live]. apply both_app.
    + eapply both_impl; [|exact HD]. intros k x y Hk (H1 & H2 & H3 & H4). split; [exact H1|split; [now apply find_app_l|split; assumption]].
    + constructor; [|constructor]. cbn. split; [reflexivity|]. split; [|split; [|split]]; cbn [p_from p_items m_from m_items length].
      * exists []. rewrite HNE. split; reflexivity.
      * rewrite find_app_r by assumption. cbn. now rewrite N.eqb_refl.
      * lia.
      * rewrite HNP. reflexivity.
Qed.

Lemma both_filter {A B} (P : N -> A -> B -> Prop) (f : N -> bool) l1 l2 : both P l1 l2 ->
  both P (filter (fun e => f (fst e)) l1) (filter (fun e => f (fst e)) l2).
Proof.
  induction 1 as [|[k a] [k' b] l1 l2 [HK HP] H IH]; cbn; [constructor|]. cbn in HK. subst k'. destruct (f k); [|assumption]. constructor; auto.
Qed.
Lemma in_del {A} id k (l : list (N * A)) : In k (map fst (del_id id l)) <-> In k (map fst l) /\ k <> id.
Proof.
  unfold del_id. rewrite !in_map_iff. split.
  - intros (x & <- & HI). apply filter_In in HI. destruct HI as [HI HN]. split; [eauto|]. intro HE. rewrite HE, N.eqb_refl in HN. discriminate.
  - intros ((x & <- & HI) & HN). exists x. split; [reflexivity|]. apply filter_In. split; [assumption|]. apply negb_true_iff, N.eqb_neq. assumption.
Qed.
Lemma remove_inv w g id l : inv w g -> find_id id (g_live g) = Some l -> on_way id (g_pend g) = 0%nat -> inv (remove_store w id) (gstep g (ORemove id)).
Proof.
  intros (HB & HM & HD) HF HW. unfold remove_store. cbn [gstep].
  destruct (both_find' _ _ _ _ _ HM HF) as (s & HS & _).
  assert (HIN : In id (map fst (w_stores w))) by (eapply in_map with (f := fst) (x := (id, s)); apply find_id_in; exact HS).
  assert (HNP : forall e, In e (w_pending w) -> fst (fst e) <> id).
  { intros e He HE. rewrite <- (b_pend _ _ HB) in HW. unfold on_way in HW. rewrite filter_map, map_length in HW.
    destruct (filter (fun x : entry => (fst (erase x) =? id)%N) (w_pending w)) eqn:EF; [|discriminate].
    assert (HI : In e (filter (fun x : entry => (fst (erase x) =? id)%N) (w_pending w))) by (apply filter_In; split; [assumption|]; cbn; now apply N.eqb_eq).
    rewrite EF in HI. destruct HI. }
  split; [|split].
  - pose proof HB as HB0. destruct HB. constructor; cbn [w_stores w_pending w_disk w_garbage w_flushed w_key w_lasttr g_pend]; try assumption.
    + apply NoDup_map_filter. assumption.
    + intros e He. apply in_del. split; [auto|]. now apply HNP.
    + intros k Hk. apply in_del in Hk. destruct Hk. auto.
    + intros m k Hk. apply in_app_or in Hk. destruct Hk as [Hk|[Hk|[]]].
      * destruct (b_garb0 m k Hk) as (G1 & G2 & G3). split; [|auto]. intro HI. apply in_del in HI. tauto.
      * injection Hk as <- <-. split; [intro HI; apply in_del in HI; tauto|]. split; [auto|]. intros i l' d He.
        apply (records_bound w g i _ HB0) in He. unfold w_idx. lia.
    + rewrite map_app. cbn. apply NoDup_app; [assumption|repeat constructor; tauto|]. intros x Hx [<-|[]].
      apply in_map_iff in Hx. destruct Hx as ([m k] & HE & Hx). cbn in HE. subst k. apply b_garb0 in Hx. tauto.
  - unfold allmem. cbn [w_stores w_pending w_disk w_flushed g_live]. apply (both_filter _ (fun k => negb (k =? id)%N)). exact HM.
  - unfold alldisk. cbn [w_stores w_pending w_disk w_flushed g_live]. apply (both_filter _ (fun k => negb (k =? id)%N)). exact HD.
Qed.

(** *** Rollback *)
Lemma rolled_app rb id id' a b i : is_rolled_back (rb ++ [(id, (a, b))]) id' i = is_rolled_back rb id' i || ((id =? id')%N && (a <=? i) && (i <=? b)).
Proof. unfold is_rolled_back. rewrite existsb_app. cbn. now rewrite orb_false_r. Qed.
Lemma cont_rb_other rb id a b id' from E : id <> id' -> cont id' from (rb ++ [(id, (a, b))]) E = cont id' from rb E.
Proof.
  intro H. unfold cont. f_equal. apply filter_ext. intros [i e]. unfold keep. rewrite rolled_app. apply N.eqb_neq in H. rewrite H. cbn. now rewrite orb_false_r.
Qed.
Lemma cont_rb_same rb id a b from E : cont id from (rb ++ [(id, (a, b))]) E = filter (fun x => negb ((a <=? fst x) && (fst x <=? b))) (cont id from rb E).
Proof.
  unfold cont. rewrite filter_map, filter_filter. f_equal. apply filter_ext. intros [i e]. unfold keep, strip. cbn [fst]. rewrite rolled_app, N.eqb_refl. cbn [andb].
  destruct (fst (fst (snd (i, e))) =? id)%N, (from <=? snd (fst (snd (i, e)))), (is_rolled_back rb id i); cbn; reflexivity.
Qed.
Lemma zip_upto from K items to : from - 1 <= to -> (length K <= length items)%nat ->
  filter (fun x => fst (snd x) <=? to) (zip from K items) =
  zip from (firstn (Z.to_nat (to + 1 - from)) K) (firstn (Z.to_nat (to + 1 - from)) items).
Proof.
  intros H. unfold zip. revert from items H; induction K as [|k K IH]; intros from items H HL; cbn.
  - destruct (Z.to_nat (to + 1 - from)); reflexivity.
  - destruct items as [|x items]; cbn in *; [lia|]. destruct (Z.leb_spec from to).
    + replace (Z.to_nat (to + 1 - from)) with (S (Z.to_nat (to + 1 - (from + 1)))) by lia. cbn. f_equal. apply IH; lia.
    + replace (Z.to_nat (to + 1 - from)) with O by lia. cbn. apply filter_none. intros [i [l d]] HI.
      apply in_combine_r in HI. apply numz_in in HI. cbn. lia.
Qed.
Lemma zip_order from K items i l d i' l' d' : srt (map fst K) -> In (i, (l, d)) (zip from K items) -> In (i', (l', d')) (zip from K items) -> l < l' -> i < i'.
Proof.
  intros HS H1 H2 HL. apply In_nth_error in H1. apply In_nth_error in H2. destruct H1 as [n H1], H2 as [m H2].
  apply zip_nth in H1. apply zip_nth in H2. destruct H1 as (-> & _ & t & H1), H2 as (-> & _ & t' & H2).
  apply (srt_nth (map fst K) n m); [assumption|rewrite nth_error_map, H1; reflexivity|rewrite nth_error_map, H2; reflexivity|lia].
Qed.
(** Taking the records between those of [to + 1] and of the last out is keeping those up to [to]. *)
Lemma zip_rolled from K items to a b da db tail : srt (map fst K) -> (length K <= length items)%nat -> from - 1 <= to ->
  In (a, (to + 1, da)) (zip from K items) -> In (b, (tail, db)) (zip from K items) -> (forall x, In x (zip from K items) -> fst (snd x) <= tail) ->
  filter (fun x => negb ((a <=? fst x) && (fst x <=? b))) (zip from K items) =
  zip from (firstn (Z.to_nat (to + 1 - from)) K) (firstn (Z.to_nat (to + 1 - from)) items).
Proof.
  intros HS HL HF HA HBI HT. rewrite <- zip_upto by assumption. apply filter_ext_in. intros [i [l d]] HI. cbn [fst snd].
  assert (HU : forall j l' d', In (j, (l', d')) (zip from K items) -> l' = l -> j = i).
  { intros j l' d' HJ ->. apply In_nth_error in HI. apply In_nth_error in HJ. destruct HI as [n HI], HJ as [m HJ].
    apply zip_nth in HI. apply zip_nth in HJ. destruct HI as (H1 & _ & t & H2), HJ as (H3 & _ & t' & H4). assert (n = m) by lia. subst. congruence. }
  pose proof (HT _ HI) as HTI. cbn in HTI.
  destruct (Z.leb_spec l to).
  - assert (i < a) by (eapply zip_order; eauto; lia). lia.
  - assert (a <= i).
    { destruct (Z.eq_dec l (to + 1)); [rewrite (HU a (to + 1) da HA); [lia|congruence]|]. assert (a < i) by (eapply zip_order; eauto; lia). lia. }
    assert (i <= b).
    { destruct (Z.eq_dec l tail); [rewrite (HU b tail db HBI); [lia|congruence]|]. assert (i < b) by (eapply zip_order; eauto; lia). lia. }
    lia.
Qed.

Lemma on_store_same id f l x : NoDup (map fst l) -> find_id id l = Some x -> f x = x -> on_store id f l = l.
Proof.
  intros ND HF HX. unfold on_store. rewrite <- (map_id l) at 2. apply map_ext_in. intros [k y] HI. cbn. destruct (N.eqb_spec k id); [|reflexivity].
  subst. apply (in_find_id _ _ _ ND) in HI. assert (y = x) by congruence. subst. now rewrite HX.
Qed.

Lemma combine_nth_error {A B} (l : list A) (r : list B) n x y : nth_error l n = Some x -> nth_error r n = Some y -> nth_error (combine l r) n = Some (x, y).
Proof. revert r n; induction l as [|a l IH]; intros [|b r] [|n] H1 H2; cbn in *; try discriminate; [congruence|auto]. Qed.
Lemma nth_error_Some_lt {A} (l : list A) n x : nth_error l n = Some x -> (n < length l)%nat.
Proof. intro H. apply nth_error_Some. congruence. Qed.

(** Rollback proper: nothing of the store is on its way. *)
Lemma rollback_core w g id l s to : inv w g -> find_id id (g_live g) = Some l -> find_id id (w_stores w) = Some s ->
  pend_of id (w_pending w) = [] -> m_from l - 1 <= to < next_lsn l - 1 ->
  exists a b ta tb, s_tail s + 1 = s_next s /\ rec_get (to + 1) (s_recs s) = Some (Some (a, ta)) /\ rec_get (s_tail s) (s_recs s) = Some (Some (b, tb)) /\
    let dk := w_disk w in
    inv (World (Disk (d_groups dk) (d_start dk) (d_sb dk) (d_rb dk ++ [(id, (a, b))])) (w_flushed w) (w_key w) (w_lasttr w)
               (w_pending w) (set_id id (Store (s_start s) (to + 1) to (rec_upto to (s_recs s)) (s_trunc s)) (w_stores w)) (w_garbage w))
        (Ghost (on_store id (gl_rollback to) (g_live g)) (g_pend g)).
Proof.
  intros (HB & HM & HD) HL HS HP HT. unfold next_lsn in HT.
  destruct (both_find _ _ _ _ _ HM HS) as (l' & HL' & HMS). assert (l' = l) by congruence. subst l'.
  destruct (mem_full _ _ _ _ _ _ _ _ _ HMS HP) as (K & HC & HKL & HSS & HKP & HKO & HKN).
  destruct (both_find _ _ _ _ _ HD HS) as (l' & HL2 & HDS). assert (l' = l) by congruence. subst l'.
  set (n := Z.to_nat (to + 1 - m_from l)).
  assert (HEa : exists a ta, nth_error K n = Some (a, ta)).
  { destruct (nth_error K n) as [[a ta]|] eqn:E; [eauto|]. apply nth_error_None in E. lia. }
  assert (HEb : exists b tb, nth_error K (length K - 1) = Some (b, tb)).
  { destruct (nth_error K (length K - 1)) as [[b tb]|] eqn:E; [eauto|]. apply nth_error_None in E. lia. }
  destruct HEa as (a & ta & HEa), HEb as (b & tb & HEb). exists a, b, ta, tb.
  assert (HSR : srt (map fst K)) by (eapply cont_K_srt; [exact HB| |exact HC]; lia).
  rewrite HSS. cbn [s_tail s_next s_recs s_start s_trunc]. rewrite !rec_get_numz.
  replace (to + 1 <? m_from l) with false by lia. replace (m_from l + Z.of_nat (length K) - 1 <? m_from l) with false by lia.
  fold n. replace (Z.to_nat (m_from l + Z.of_nat (length K) - 1 - m_from l)) with (length K - 1)%nat by lia.
  rewrite !nth_error_map, HEa, HEb. cbn [option_map]. split; [lia|split; [reflexivity|split; [reflexivity|]]].
  assert (HIa : exists da, In (a, (to + 1, da)) (zip (m_from l) K (m_items l))).
  { destruct (nth_error (m_items l) n) as [da|] eqn:E; [|apply nth_error_None in E; lia]. exists da.
    apply (nth_error_In _ n). unfold zip. rewrite (combine_nth_error _ _ n a (to + 1, da)); [reflexivity| |].
    - rewrite nth_error_map, HEa. reflexivity.
    - erewrite numz_nth by eassumption. do 2 f_equal. lia. }
  assert (HIb : exists db, In (b, (m_from l + Z.of_nat (length K) - 1, db)) (zip (m_from l) K (m_items l))).
  { destruct (nth_error (m_items l) (length K - 1)) as [db|] eqn:E; [|apply nth_error_None in E; lia]. exists db.
    apply (nth_error_In _ (length K - 1)). unfold zip. rewrite (combine_nth_error _ _ (length K - 1) b (m_from l + Z.of_nat (length K) - 1, db)); [reflexivity| |].
    - rewrite nth_error_map, HEb. reflexivity.
    - erewrite numz_nth by eassumption. do 2 f_equal. lia. }
  destruct HIa as [da HIa], HIb as [db HIb].
  assert (HZT : forall x, In x (zip (m_from l) K (m_items l)) -> fst (snd x) <= m_from l + Z.of_nat (length K) - 1).
  { intros [i [lx dx]] HI. apply In_nth_error in HI. destruct HI as [m HI]. apply zip_nth in HI. destruct HI as (-> & HI & _). cbn.
    apply nth_error_Some_lt in HI. lia. }
  assert (HBF : b <= w_flushed w).
  { assert (HIb' : In (b, (m_from l + Z.of_nat (length K) - 1, db)) (cont id (m_from l) (d_rb (w_disk w)) (records (d_groups (w_disk w))))) by (rewrite HC; assumption).
    apply cont_in in HIb'. destruct HIb' as [HIb' _]. apply (records_bound _ _ _ _ HB) in HIb'. lia. }
  split; [|split].
  - pose proof HB as HB0. destruct HB0. constructor; cbn [w_stores w_pending w_disk d_groups d_start d_sb d_rb w_garbage w_flushed w_key w_lasttr g_pend]; try assumption.
    + now rewrite keys_set.
    + intros e He. rewrite keys_set. auto.
    + intros k Hk. rewrite keys_set in Hk. auto.
    + intros m k Hk. rewrite keys_set. auto.
    + intros r Hr. apply in_app_or in Hr. destruct Hr as [Hr|[<-|[]]]; [auto|]. cbn. assumption.
  - unfold allmem. cbn [w_stores w_pending w_disk d_groups d_start d_sb d_rb w_flushed g_live]. apply (both_set _ _ _ _ _ _ _ (b_nd _ _ HB) HM).
    + intros k x y Hk (K' & HX). exists K'. rewrite cont_rb_other by congruence. exact HX.
    + intros y Hy. assert (y = l) by congruence. subst y. exists (firstn n K). cbn [gl_rollback m_from m_items]. fold n. rewrite !firstn_length.
      split; [|split; [|split; [|split; [|split]]]].
      * rewrite cont_rb_same, HC. eapply zip_rolled; eauto; lia.
      * lia.
      * rewrite HP. rewrite skipn_all2 by (rewrite firstn_length; lia). reflexivity.
      * cbn [s_trunc]. f_equal; [lia|lia|]. unfold recs. rewrite rec_upto_numz by lia. fold n. rewrite HKL, Nat.sub_diag. cbn [repeat]. rewrite app_nil_r.
        now rewrite firstn_map.
      * intros p Hp. cbn [s_trunc]. apply HKP. rewrite <- (firstn_skipn n K). apply in_or_app. auto.
      * cbn [s_trunc]. auto.
  - unfold alldisk. cbn [w_stores w_pending w_disk d_groups d_start d_sb d_rb w_flushed g_live].
    apply (both_set _ (fun k (_ : store) gl => diskR (records (d_groups (w_disk w))) (d_rb (w_disk w) ++ [(id, (a, b))]) (d_sb (w_disk w)) (w_pending w) k gl) _ _ _ _ _ (b_nd _ _ HB) HD).
    + intros k x y Hk ((K' & HK1 & HK2) & HX). split; [|exact HX]. exists K'. rewrite cont_rb_other by congruence. auto.
    + intros y Hy. assert (y = l) by congruence. subst y. destruct HDS as ((Kp & HKp & HCp) & D2 & D3 & D4).
      assert (HCL : cont id (m_from l) (d_rb (w_disk w)) (records (d_groups (w_disk w))) = filter (fun x => m_from l <=? fst (snd x)) (zip (p_from l) Kp (p_items l))).
      { rewrite (cont_later id (p_from l)) by assumption. now rewrite HCp. }
      assert (HSUB : forall x, In x (zip (m_from l) K (m_items l)) -> In x (zip (p_from l) Kp (p_items l))).
      { intros x Hx. rewrite <- HC, HCL in Hx. apply filter_In in Hx. tauto. }
      rewrite HP in D4. cbn [length] in D4.
      split; [|split; [exact D2|split; [exact D3|]]]; cbn [gl_rollback p_from p_items m_from m_items].
      * exists (firstn (Z.to_nat (to + 1 - p_from l)) Kp). split; [rewrite !firstn_length; lia|]. rewrite cont_rb_same, HCp.
        eapply zip_rolled; [eapply cont_K_srt; [exact HB| |exact HCp]; lia|lia|lia|apply HSUB; exact HIa|apply HSUB; exact HIb|].
        intros [i [lx dx]] HI. apply In_nth_error in HI. destruct HI as [m HI]. apply zip_nth in HI. destruct HI as (-> & HI & _). cbn.
        apply nth_error_Some_lt in HI. lia.
      * rewrite HP. cbn [length]. rewrite !firstn_length. lia.
Qed.

Lemma g_keys_nd w g : base w g -> allmem w g -> NoDup (map fst (g_live g)).
Proof. intros HB HM. rewrite <- (both_keys _ _ _ HM). apply (b_nd _ _ HB). Qed.

Lemma rollback_inv w g id to : inv w g -> legal w g (ORollback id to) ->
  exists w', rollback w id to = Some (w', true) /\ inv w' (gstep g (ORollback id to)).
Proof.
  intros HI (l & HL & HT & HC). pose proof HI as (HB & HM & HD). unfold rollback.
  destruct (both_find' _ _ _ _ _ HM HL) as (s & HS & HMS). rewrite HS.
  pose proof HMS as (K & _ & HLen & HP & HSS & _).
  assert (HW : (on_way id (g_pend g) = length (m_items l) - length K)%nat).
  { rewrite <- (on_way_pend id _ _ (b_pend _ _ HB)), HP, numz_length, skipn_length. reflexivity. }
  assert (HTL : s_tail s = m_from l + Z.of_nat (length K) - 1) by (rewrite HSS; reflexivity).
  assert (HNX : s_next s = m_from l + Z.of_nat (length (m_items l))) by (rewrite HSS; reflexivity).
  assert (HST : s_start s = m_from l) by (rewrite HSS; reflexivity).
  unfold next_lsn in HC. destruct HC as [HC|[HC1 HC2]].
  - replace (to =? s_tail s) with false by lia. replace ((s_tail s <? to) || (to <? s_start s - 1)) with false by lia.
    cbn [gstep]. rewrite HW. destruct (Nat.eqb_spec (length (m_items l) - length K) 0) as [HZ|HZ].
    + replace (s_tail s + 1 <? s_next s) with false by lia. rewrite HS. replace (s_tail s + 1 <? s_next s) with false by lia.
      destruct (rollback_core w g id l s to HI HL HS) as (a & b & ta & tb & _ & R1 & R2 & R3).
      * rewrite HP, skipn_all2 by lia. reflexivity.
      * unfold next_lsn. lia.
      * rewrite R1, R2. eexists. split; [reflexivity|]. exact R3.
    + replace (s_tail s + 1 <? s_next s) with true by lia.
      destruct (flush_inv w g HI) as (w1 & HF & HI1 & HP1 & HK1 & HSB1). rewrite HF.
      destruct (g_flush_mem (length (g_pend g)) g id l HL) as (l1 & HL1 & HLF & HLI). fold (g_flush_all g) in HL1.
      destruct (both_find' _ _ _ _ _ (proj1 (proj2 HI1)) HL1) as (s1 & HS1 & _). rewrite HS1.
      destruct (rollback_core w1 _ id l1 s1 to HI1 HL1 HS1) as (a & b & ta & tb & R0 & R1 & R2 & R3).
      * now rewrite HP1.
      * unfold next_lsn. rewrite HLF, HLI. lia.
      * replace (s_tail s1 + 1 <? s_next s1) with false by lia. rewrite R1, R2. eexists. split; [reflexivity|]. exact R3.
  - replace (to =? s_tail s) with true by lia. exists w. split; [reflexivity|]. cbn [gstep]. rewrite HC1. cbn [Nat.eqb].
    rewrite (on_store_same id _ _ l (g_keys_nd _ _ HB HM) HL); [now destruct g|].
    destruct (both_find _ _ _ _ _ HD HS) as (l' & HL2 & (_ & _ & D3 & D4)). assert (l' = l) by congruence. subst l'.
    rewrite (on_way_pend id _ _ (b_pend _ _ HB)), HC1 in D4.
    unfold gl_rollback. rewrite !firstn_all2 by lia. now destruct l.
Qed.

Lemma both_finds {A B} (P : N -> A -> B -> Prop) l1 l2 : NoDup (map fst l1) -> both P l1 l2 ->
  both (fun id x y => (find_id id l1 = Some x /\ find_id id l2 = Some y) /\ P id x y) l1 l2.
Proof.
  intros ND H. assert (ND2 : NoDup (map fst l2)) by (rewrite <- (both_keys _ _ _ H); exact ND).
  cut (forall a b, (forall e, In e l1 -> In e a) -> (forall e, In e l2 -> In e b) -> NoDup (map fst a) -> NoDup (map fst b) ->
         both (fun id x y => (find_id id a = Some x /\ find_id id b = Some y) /\ P id x y) l1 l2); [intro HC; apply HC; auto|].
  clear ND ND2. intros a b HA HB NA NB. induction H as [|[k x] [k' y] l1 l2 [HK HP] H IH]; constructor.
  - cbn in *. subst. split; [reflexivity|split; [split; apply in_find_id; auto|assumption]].
  - apply IH; intros e He; [apply HA|apply HB]; now right.
Qed.

(** *** Restart *)
Definition loadR rb (G : Z -> Z -> Prop) (E : list (Z * entry)) (id : N) (st : store) (gl : glog) : Prop :=
  exists K, cont id (p_from gl) rb E = zip (p_from gl) K (p_items gl) /\ (length K <= length (p_items gl))%nat /\
    st = Store (p_from gl) (p_from gl + Z.of_nat (length K)) (p_from gl + Z.of_nat (length K) - 1) (numz (p_from gl) (map Some K)) 0 /\
    forall p, In p K -> G (fst p) (snd p).
Definition whole rb (E : list (Z * entry)) (id : N) (gl : glog) : Prop :=
  exists K, length K = length (p_items gl) /\ cont id (p_from gl) rb E = zip (p_from gl) K (p_items gl).

Lemma load_one rb G E id lsn d i fkey rest st gl :
  loadR rb G E id st gl -> whole rb (E ++ (i, (id, lsn, d)) :: rest) id gl -> keep id (p_from gl) rb (i, (id, lsn, d)) = true -> G i fkey ->
  exists st', complete st lsn i fkey = Some st' /\ loadR rb G (E ++ [(i, (id, lsn, d))]) id st' gl.
Proof.
  intros (K & HC & HL & HS & HK) (Kp & HKp & HCp) HKE HG.
  change ((i, (id, lsn, d)) :: rest) with ([(i, (id, lsn, d))] ++ rest) in HCp. rewrite !cont_app in HCp. rewrite HC in HCp.
  assert (HC1 : cont id (p_from gl) rb [(i, (id, lsn, d))] = [(i, (lsn, d))]).
  { unfold cont. cbn [filter]. rewrite HKE. reflexivity. }
  assert (HN : nth_error (zip (p_from gl) Kp (p_items gl)) (length K) = Some (i, (lsn, d))).
  { rewrite <- HCp, HC1. rewrite nth_error_app2 by (rewrite zip_length; lia). rewrite zip_length, Nat.sub_diag by lia. reflexivity. }
  apply zip_nth in HN. destruct HN as (HLS & HD & _). pose proof (nth_error_Some_lt _ _ _ HD) as HLT.
  eexists. split.
  - unfold complete. rewrite HS. cbn [s_tail s_next s_start s_recs s_trunc]. replace (p_from gl + Z.of_nat (length K) - 1 <? lsn) with true by lia. reflexivity.
  - exists (K ++ [(i, fkey)]). rewrite app_length. cbn [length]. split; [|split; [lia|split]].
    + rewrite cont_app, HC, HC1, HLS. symmetry. apply zip_snoc. exact HD.
    + f_equal; try lia. rewrite HLS. rewrite map_app. cbn [map]. rewrite <- (map_length (@Some (Z * Z)) K). apply rec_set_end.
    + intros p Hp. apply in_app_or in Hp. destruct Hp as [Hp|[<-|[]]]; auto.
Qed.
Lemma load_skip rb G E id st gl x : loadR rb G E id st gl -> keep id (p_from gl) rb x = false -> loadR rb G (E ++ [x]) id st gl.
Proof.
  intros (K & HC & HX) HKE. exists K. split; [|exact HX]. rewrite cont_app, HC. unfold cont. cbn [filter]. rewrite HKE. cbn. apply app_nil_r.
Qed.

Lemma load_records_ok rb (G : Z -> Z -> Prop) fkey (l : list entry) : forall E idx rest (ss : list (N * store)) gls,
  NoDup (map fst ss) -> both (loadR rb G E) ss gls ->
  (forall id gl, find_id id gls = Some gl -> whole rb (E ++ numz idx l ++ rest) id gl) ->
  (forall i, idx <= i < idx + Z.of_nat (length l) -> G i fkey) ->
  exists ss' cb, load_records rb fkey idx l ss = Some (ss', cb) /\ map fst ss' = map fst ss /\
    both (loadR rb G (E ++ numz idx l)) ss' gls /\
    (forall id gl, find_id id gls = Some gl -> calls_of id cb = map snd (cont id (p_from gl) rb (numz idx l))) /\
    (forall id, find_id id gls = None -> calls_of id cb = []).
Proof.
  induction l as [|[[id lsn] d] l IH]; intros E idx rest ss gls ND HB HW HG.
  - exists ss, []. cbn [load_records numz]. rewrite app_nil_r. auto.
  - cbn [numz] in *. set (x := (idx, (id, lsn, d))) in *.
    assert (HE : forall y, E ++ (x :: y) = (E ++ [x]) ++ y) by (intro y; rewrite <- app_assoc; reflexivity).
    assert (HEW : forall k gl, find_id k gls = Some gl -> whole rb ((E ++ [x]) ++ numz (idx + 1) l ++ rest) k gl).
    { intros k gl Hk. rewrite <- HE. apply HW. exact Hk. }
    assert (HEG : forall i, idx + 1 <= i < idx + 1 + Z.of_nat (length l) -> G i fkey) by (intros i Hi; apply HG; cbn [length]; lia).
    assert (HCX : forall k from y, cont k from rb (x :: y) = cont k from rb [x] ++ cont k from rb y) by (intros; apply (cont_app k from rb [x])).
    assert (HNK : forall k from, k <> id -> keep k from rb x = false).
    { intros k from Hk. unfold keep, x. cbn [fst snd]. destruct (N.eqb_spec id k); [congruence|reflexivity]. }
    (* the record is left out *)
    assert (HSKIP : (forall gl, find_id id gls = Some gl -> keep id (p_from gl) rb x = false) ->
       exists ss' cb, load_records rb fkey (idx + 1) l ss = Some (ss', cb) /\ map fst ss' = map fst ss /\
         both (loadR rb G (E ++ x :: numz (idx + 1) l)) ss' gls /\
         (forall id gl, find_id id gls = Some gl -> calls_of id cb = map snd (cont id (p_from gl) rb (x :: numz (idx + 1) l))) /\
         (forall id, find_id id gls = None -> calls_of id cb = [])).
    { intro HKF. destruct (IH (E ++ [x]) (idx + 1) rest ss gls) as (ss' & cb & H1 & H2 & H3 & H4 & H5); auto.
      - eapply both_impl; [|exact (both_finds _ _ _ ND HB)]. intros k st gl _ ((_ & HF) & HR). apply load_skip; [exact HR|].
        destruct (N.eq_dec k id) as [->|HNe]; [auto|now apply HNK].
      - exists ss', cb. rewrite HE. split; [exact H1|split; [exact H2|split; [exact H3|split; [|exact H5]]]].
        intros k gl Hk. rewrite HCX, map_app. rewrite (H4 k gl Hk). unfold cont at 2. cbn [filter].
        destruct (N.eq_dec k id) as [->|HNe]; [rewrite (HKF gl Hk)|rewrite HNK by assumption]; reflexivity. }

    cbn [load_records].
    destruct (is_rolled_back rb id idx) eqn:ER.
    { apply HSKIP. intros gl _. unfold keep, x. cbn [fst snd]. rewrite ER. apply andb_false_r. }
    destruct (find_id id ss) as [st|] eqn:EF.
    2:{ apply HSKIP. intros gl Hgl. exfalso. destruct (both_find' _ _ _ _ _ HB Hgl) as (st & Hst & _). congruence. }
    destruct (both_find _ _ _ _ _ HB EF) as (gl & Hgl & HR).
    assert (HSS : s_start st = p_from gl) by (destruct HR as (K & _ & _ & -> & _); reflexivity). rewrite HSS.
    destruct (Z.ltb_spec lsn (p_from gl)) as [HLT|HLT].
    { apply HSKIP. intros gl' Hgl'. assert (gl' = gl) by congruence. subst gl'. unfold keep, x. cbn [fst snd].
      replace (p_from gl <=? lsn) with false by lia. now rewrite andb_false_r. }
    assert (HKT : keep id (p_from gl) rb x = true).
    { unfold keep, x. cbn [fst snd]. rewrite N.eqb_refl, ER. cbn. lia. }
    destruct (load_one rb G E id lsn d idx fkey (numz (idx + 1) l ++ rest) st gl HR) as (st' & HC & HR').
    + apply HW in Hgl. exact Hgl.
    + exact HKT.
    + apply HG. cbn [length]. lia.
    + rewrite HC. destruct (IH (E ++ [x]) (idx + 1) rest (set_id id st' ss) gls) as (ss' & cb & H1 & H2 & H3 & H4 & H5); auto.
      * now rewrite keys_set.
      * eapply both_set_l; [exact ND|exact HB| |].
        -- intros k y z Hk Hy. apply load_skip; [exact Hy|]. now apply HNK.
        -- intros y Hy. assert (y = gl) by congruence. subst y. exact HR'.
      * rewrite H1. exists ss', ((id, lsn, d) :: cb). split; [reflexivity|]. split; [rewrite H2; apply keys_set|]. rewrite HE. split; [exact H3|]. split.
        -- intros k gl' Hk. rewrite HCX, map_app. rewrite <- (H4 k gl' Hk). unfold calls_of at 1. cbn [filter fst snd]. unfold cont. cbn [filter].
           destruct (N.eqb_spec id k) as [->|HNe].
           ++ assert (gl' = gl) by congruence. subst gl'. rewrite HKT. reflexivity.
           ++ rewrite HNK by congruence. reflexivity.
        -- intros k Hk. unfold calls_of. cbn [filter fst snd]. destruct (N.eqb_spec id k) as [->|HNe]; [congruence|]. apply (H5 k Hk).
Qed.

Lemma calls_app id a b : calls_of id (a ++ b) = calls_of id a ++ calls_of id b.
Proof. unfold calls_of. now rewrite filter_app, map_app. Qed.

Lemma load_groups_ok rb (G : Z -> Z -> Prop) gs : forall E idx e (ss : list (N * store)) gls,
  NoDup (map fst ss) -> both (loadR rb G E) ss gls -> chain idx gs e ->
  (forall id gl, find_id id gls = Some gl -> whole rb (E ++ records gs) id gl) ->
  (forall i t, grp gs i t -> G i t) ->
  exists ss' cb, load_groups rb idx gs ss = Some (ss', cb, e) /\ map fst ss' = map fst ss /\
    both (loadR rb G (E ++ records gs)) ss' gls /\
    (forall id gl, find_id id gls = Some gl -> calls_of id cb = map snd (cont id (p_from gl) rb (records gs))) /\
    (forall id, find_id id gls = None -> calls_of id cb = []).
Proof.
  induction gs as [|[f l] gs IH]; intros E idx e ss gls ND HB HC HW HG.
  - cbn in HC. subst. exists ss, []. unfold records. cbn. rewrite app_nil_r. auto.
  - cbn [chain] in HC. destruct HC as (-> & HL & HC). cbn [load_groups]. rewrite Z.eqb_refl.
    destruct (Nat.eqb_spec (length l) 0) as [HZ|_]; [destruct l; [contradiction|discriminate]|]. cbn [negb orb].
    assert (HRec : records ((idx, l) :: gs) = numz idx l ++ records gs) by reflexivity.
    destruct (load_records_ok rb G idx l E idx (records gs) ss gls ND HB) as (ss1 & cb1 & H1 & H2 & H3 & H4 & H5).
    + intros id gl Hid. rewrite <- HRec. auto.
    + intros i Hi. apply HG. exists l. split; [now left|assumption].
    + rewrite H1. destruct (IH (E ++ numz idx l) (idx + Z.of_nat (length l)) e ss1 gls) as (ss2 & cb2 & I1 & I2 & I3 & I4 & I5); auto.
      * now rewrite H2.
      * intros id gl Hid. rewrite <- app_assoc, <- HRec. auto.
      * intros i t (l' & Hl' & Hi). apply HG. exists l'. split; [now right|assumption].
      * rewrite I1. exists ss2, (cb1 ++ cb2). split; [reflexivity|]. split; [congruence|]. rewrite HRec, app_assoc. split; [exact I3|]. split.
        -- intros id gl Hid. rewrite calls_app, cont_app, map_app, (H4 id gl Hid), (I4 id gl Hid). reflexivity.
        -- intros id Hid. rewrite calls_app, (H5 id Hid), (I5 id Hid). reflexivity.
Qed.

Lemma zip_snd from K items : length K = length items -> map snd (zip from K items) = numz from items.
Proof.
  unfold zip. revert from items; induction K as [|k K IH]; intros from [|x items] H; cbn in *; try reflexivity; try lia. f_equal. apply IH. lia.
Qed.
Lemma find_map {A B} id (f : A -> B) l : find_id id (map (fun e => (fst e, f (snd e))) l) = option_map f (find_id id l).
Proof. induction l as [|[k x] l IH]; cbn; [reflexivity|]. destruct (k =? id)%N; auto. Qed.
Lemma find_keep {A} id (f : N -> bool) (l : list (N * A)) : find_id id (filter (fun e => f (fst e)) l) = if f id then find_id id l else None.
Proof.
  induction l as [|[k x] l IH]; cbn; [now destruct (f id)|]. destruct (f k) eqn:EK; cbn; destruct (N.eqb_spec k id); subst; try rewrite IH; rewrite ?EK; reflexivity.
Qed.

Lemma restart_inv w g keep : inv w g ->
  let opened := filter (fun id => mem_id id keep) (map fst (w_stores w)) in
  exists w' cb, restart (w_disk w) opened = Some (w', cb) /\ inv w' (gstep g (OCrash keep)) /\
    (forall id l, mem_id id keep = true -> find_id id (g_live g) = Some l -> calls_of id cb = number (p_from l) (p_items l)) /\
    (forall id, find_id id (g_live g) = None \/ mem_id id keep = false -> calls_of id cb = []).
Proof.
  intros (HB & HM & HD) opened. unfold restart.
  set (gls := filter (fun e : N * glog => mem_id (fst e) keep) (g_live g)).
  assert (HND : NoDup opened) by (apply NoDup_filter, (b_nd _ _ HB)).
  assert (HKG : map fst gls = opened).
  { unfold gls, opened. rewrite (both_keys _ _ _ HM). symmetry. apply filter_map. }
  assert (HD' : forall id l, find_id id (g_live g) = Some l -> diskR (records (d_groups (w_disk w))) (d_rb (w_disk w)) (d_sb (w_disk w)) (w_pending w) id l).
  { intros id l Hl. destruct (both_find' _ _ _ _ _ HD Hl) as (_ & _ & HX). exact HX. }
  assert (HG' : forall id l, find_id id gls = Some l -> find_id id (g_live g) = Some l /\ mem_id id keep = true).
  { intros id l Hl. unfold gls in Hl. rewrite (find_keep id (fun k => mem_id k keep)) in Hl. destruct (mem_id id keep); [auto|discriminate]. }
  set (open_one := fun id => match find_id id (d_sb (w_disk w)) with Some start => [(id, new_store start)] | None => [] end).
  assert (HSS : both (loadR (d_rb (w_disk w)) (grp (d_groups (w_disk w))) []) (flat_map open_one opened) gls).
  { rewrite <- HKG. assert (HIn : forall id l, In (id, l) gls -> find_id id (d_sb (w_disk w)) = Some (p_from l)).
    { intros id l HI. assert (NDg : NoDup (map fst gls)) by (rewrite HKG; exact HND). apply (in_find_id _ _ _ NDg) in HI. apply HG' in HI. destruct HI as [HI _].
      apply HD' in HI. destruct HI as (_ & HI & _). exact HI. }
    clear -HIn. induction gls as [|[k l] gls IH]; cbn [map flat_map fst]; [constructor|].
    unfold open_one at 1. rewrite (HIn k l (or_introl eq_refl)). cbn [app]. constructor.
    - cbn. split; [reflexivity|]. exists []. cbn [length]. split; [reflexivity|split; [lia|split; [|intros p []]]].
      unfold new_store. cbn. f_equal; lia.
    - apply IH. intros id l' HI. apply HIn. now right. }
  assert (HKS : map fst (flat_map open_one opened) = opened) by (rewrite (both_keys _ _ _ HSS); exact HKG).
  destruct (load_groups_ok (d_rb (w_disk w)) (grp (d_groups (w_disk w))) (d_groups (w_disk w)) [] (d_start (w_disk w)) (w_flushed w + 1) (flat_map open_one opened) gls)
    as (ss & cb & H1 & H2 & H3 & H4 & H5); auto.
  - now rewrite HKS.
  - apply (b_chain _ _ HB).
  - intros id l Hl. apply HG' in Hl. destruct Hl as [Hl _]. apply HD' in Hl. destruct Hl as (Hl & _). exact Hl.
  - fold open_one. rewrite H1. eexists. exists cb. split; [reflexivity|]. cbn [app] in H3.
    split; [|split].
    + cbn [gstep]. fold gls. pose proof HB as HB0. destruct HB0. rewrite HKS in H2.
      assert (HOL : forall id, In id opened -> In id (map fst (w_stores w))) by (intros id HI; apply filter_In in HI; tauto).
      assert (HNX : 0 <= w_flushed w + 1) by (pose proof (proj2 (chain_records _ _ _ b_chain0)); lia).
      split; [|split].
      * constructor; cbn [w_stores w_pending w_disk w_garbage w_flushed w_key w_lasttr g_pend]; try assumption.
        -- now rewrite H2.
        -- reflexivity.
        -- intros e [].
        -- replace (w_flushed w + 1 - 1 + 1) with (w_flushed w + 1) by lia. assumption.
        -- intros id HI. rewrite H2 in HI. auto.
        -- intros m id HI. apply in_map_iff in HI. destruct HI as (k & HE & HI). injection HE as <- <-. apply filter_In in HI. destruct HI as [HI HN].
           rewrite H2. split; [intro HO; apply mem_id_in in HO; rewrite HO in HN; discriminate|]. split; [assumption|].
           intros i l d He. apply (records_bound w g i _ HB) in He. lia.
        -- rewrite map_map. cbn. rewrite map_id. apply NoDup_filter. assumption.
        -- intros r Hr. apply b_rb0 in Hr. lia.
        -- now left.
        -- destruct (d_groups (w_disk w)) as [|[f l] gs] eqn:EG; [right; split; [reflexivity|apply b_empty0; reflexivity]|]. cbn [chain] in b_chain0. left. tauto.
      * unfold allmem. cbn [w_stores w_pending w_disk w_flushed g_live]. replace (w_flushed w + 1 - 1 + 1) with (w_flushed w + 1) by lia.
        eapply (both_map_r _ _ _ _ (fun _ l => gl_crash l)); [exact (both_finds _ _ _ (eq_ind_r (fun x => NoDup x) HND H2) H3)|].
        intros id st l HI ((_ & HF) & K & HC & HLen & HS & HK). apply HG' in HF. destruct HF as [HF _]. apply HD' in HF. destruct HF as ((Kp & HKp & HCp) & _).
        assert (HLK : length K = length (p_items l)).
        { rewrite HCp in HC. apply (f_equal (@length _)) in HC. rewrite !zip_length in HC by lia. lia. }
        exists K. cbn [gl_crash m_from m_items]. rewrite HLK, Nat.sub_diag, skipn_all. unfold recs. cbn [repeat]. rewrite app_nil_r.
        split; [exact HC|split; [lia|split; [reflexivity|split; [|split; [|split]]]]].
        -- rewrite HS. cbn [s_trunc]. rewrite HLK. reflexivity.
        -- intros p Hp. rewrite HS. cbn [s_trunc]. split; [|auto]. destruct (HK p Hp) as (lg & G1 & G2). apply (chain_in _ _ _ _ _ b_chain0) in G1. lia.
        -- rewrite HS. now left.
        -- rewrite HS. cbn [s_trunc]. lia.
      * unfold alldisk. cbn [w_stores w_pending w_disk w_flushed g_live].
        eapply (both_map_r _ _ _ _ (fun _ l => gl_crash l)); [exact (both_finds _ _ _ (eq_ind_r (fun x => NoDup x) HND H2) H3)|].
        intros id st l HI ((_ & HF) & _). apply HG' in HF. destruct HF as [HF _]. apply HD' in HF. destruct HF as (D1 & D2 & D3 & D4).
        split; [exact D1|split; [exact D2|split]]; cbn [gl_crash p_from p_items m_from m_items]; [lia|]. change (pend_of id []) with (@nil (Z * data)). cbn [length]. lia.
    + intros id l Hk Hl. assert (HF : find_id id gls = Some l) by (unfold gls; rewrite (find_keep id (fun k => mem_id k keep)), Hk; exact Hl).
      rewrite (H4 id l HF). apply HD' in Hl. destruct Hl as ((Kp & HKp & HCp) & _). rewrite HCp, zip_snd by assumption. symmetry. apply number_numz.
    + intros id HI. apply H5. unfold gls. rewrite (find_keep id (fun k => mem_id k keep)). destruct HI as [-> | ->]; [now destruct (mem_id id keep)|reflexivity].
Qed.

(** *** Read *)
Lemma find_srt {A} (l : list (Z * A)) i x : srt (map fst l) -> In (i, x) l -> find (fun r => fst r =? i) l = Some (i, x).
Proof.
  induction l as [|[j y] l IH]; cbn; [tauto|]. intro H. inversion_clear H. rewrite Forall_forall in H1. intros [[= -> ->]|HI].
  - now rewrite Z.eqb_refl.
  - assert (j < i) by (apply H1; now apply (in_map fst) in HI). replace (j =? i) with false by lia. auto.
Qed.
Lemma read_durable w g id s l lsn n i t : inv w g -> find_id id (w_stores w) = Some s -> find_id id (g_live g) = Some l ->
  n = Z.to_nat (lsn - m_from l) -> m_from l <= lsn -> rec_get lsn (s_recs s) = Some (Some (i, t)) ->
  (i =? -1) = false /\ exists d, nth_error (m_items l) n = Some d /\ dev_read (d_groups (w_disk w)) i = Some (id, lsn, d).
Proof.
  intros (HB & HM & HD) HS HL -> HF HR. destruct (both_find _ _ _ _ _ HM HS) as (l' & HL' & K & HC & HLen & HP & HSS & HK & _). assert (l' = l) by congruence. subst l'.
  rewrite HSS in HR. cbn [s_recs] in HR. unfold recs in HR. rewrite rec_get_numz in HR. replace (lsn <? m_from l) with false in HR by lia.
  set (n := Z.to_nat (lsn - m_from l)) in *.
  assert (HKN : nth_error K n = Some (i, t)).
  { destruct (Nat.lt_ge_cases n (length K)) as [HLT|HGE].
    - rewrite nth_error_app1 in HR by (now rewrite map_length). rewrite nth_error_map in HR. destruct (nth_error K n); cbn in HR; [congruence|discriminate].
    - rewrite nth_error_app2 in HR by (now rewrite map_length). apply nth_error_In in HR. apply repeat_spec in HR. discriminate. }
  pose proof (nth_error_Some_lt _ _ _ HKN) as HLT.
  destruct (nth_error (m_items l) n) as [d|] eqn:EN; [|apply nth_error_None in EN; lia].
  assert (HZ : In (i, (lsn, d)) (zip (m_from l) K (m_items l))).
  { apply (nth_error_In _ n). unfold zip. apply combine_nth_error; [rewrite nth_error_map, HKN; reflexivity|].
    erewrite numz_nth by eassumption. do 2 f_equal. lia. }
  rewrite <- HC in HZ. apply cont_in in HZ. destruct HZ as (HI & _).
  pose proof (records_bound _ _ _ _ HB HI). pose proof (b_start _ _ HB). split; [lia|]. exists d. split; [reflexivity|].
  unfold dev_read. rewrite (find_srt _ _ _ (records_srt _ _ HB) HI). reflexivity.
Qed.
Lemma read_inv w g id l lsn : inv w g -> find_id id (g_live g) = Some l ->
  exists w', read_sync w id lsn = Some (w', expected l lsn) /\ (w' = w \/ (flush w = Some w' /\ inv w' (g_flush_all g))).
Proof.
  intros HI HL. pose proof HI as (HB & HM & HD). unfold read_sync. destruct (both_find' _ _ _ _ _ HM HL) as (s & HS & HMS). rewrite HS.
  pose proof HMS as (K & HC & HLen & HP & HSS & HK & _).
  assert (HRG : rec_get lsn (s_recs s) = if lsn <? m_from l then None else nth_error (map Some K ++ repeat None (length (m_items l) - length K)) (Z.to_nat (lsn - m_from l))).
  { rewrite HSS. cbn [s_recs]. unfold recs. apply rec_get_numz. }
  unfold expected. destruct (Z.ltb_spec lsn (m_from l)) as [HLT|HGE].
  { rewrite HRG. exists w. auto. }
  set (n := Z.to_nat (lsn - m_from l)) in *.
  destruct (rec_get lsn (s_recs s)) as [[[i t]|]|] eqn:ER.
  - rewrite HS, ER. destruct (read_durable w g id s l lsn n i t HI HS HL eq_refl HGE ER) as (H1 & d & H2 & H3). rewrite H1, H2, H3. exists w. auto.
  - destruct (flush_inv w g HI) as (w1 & HF & HI1 & HP1 & HK1 & HSB1). rewrite HF.
    destruct (g_flush_mem (length (g_pend g)) g id l HL) as (l1 & HL1 & HLF & HLI). fold (g_flush_all g) in HL1.
    pose proof HI1 as (HB1 & HM1 & HD1). destruct (both_find' _ _ _ _ _ HM1 HL1) as (s1 & HS1 & HMS1). rewrite HS1.
    destruct (mem_full _ _ _ _ _ _ _ _ _ HMS1) as (K1 & _ & HKL & HSS1 & _); [now rewrite HP1|].
    assert (HN : (n < length (m_items l))%nat).
    { symmetry in HRG. apply nth_error_Some_lt in HRG. rewrite app_length, map_length, repeat_length in HRG. lia. }
    destruct (rec_get lsn (s_recs s1)) as [[[i t]|]|] eqn:ER1.
    + destruct (read_durable w1 _ id s1 l1 lsn n i t HI1 HS1 HL1) as (H1 & d & H2 & H3); [now rewrite HLF|lia|exact ER1|].
      rewrite HLI in H2. rewrite H1, H2, H3. exists w1. auto.
    + exfalso. rewrite HSS1 in ER1. cbn [s_recs] in ER1. rewrite rec_get_numz in ER1. replace (lsn <? m_from l1) with false in ER1 by lia.
      rewrite nth_error_map in ER1. destruct (nth_error K1 (Z.to_nat (lsn - m_from l1))); discriminate.
    + exfalso. rewrite HSS1 in ER1. cbn [s_recs] in ER1. rewrite rec_get_numz in ER1. replace (lsn <? m_from l1) with false in ER1 by lia.
      apply nth_error_None in ER1. rewrite map_length, HKL, HLI, HLF in ER1. unfold n in HN. lia.
  - symmetry in HRG. apply nth_error_None in HRG. rewrite app_length, map_length, repeat_length in HRG.
    assert (HE : nth_error (m_items l) n = None) by (apply nth_error_None; lia). rewrite HE. exists w. auto.
Qed.

(** *** All operations *)
Lemma fresh_inv : inv fresh (Ghost [] []).
Proof.
  split; [|split; constructor]. constructor; cbn; try tauto; try lia; try (now constructor); try (now left); now right.
Qed.
Lemma exec_inv w g o : inv w g -> legal w g o -> exists w', exec w o = Some w' /\ inv w' (gstep g o).
Proof.
  intros HI HL. destruct o as [id d|k|id upto|id upto| |id to|id|id|keep]; cbn [exec].
  - destruct HL as [l HL]. destruct (append_inv w g id d l HI HL) as (w' & H1 & H2). rewrite H1. eauto.
  - cbn in HL. pose proof HI as (HB & _). destruct (flush_group_inv w g k HI) as (w' & H1 & H2 & _).
    + rewrite <- (b_pend _ _ HB), map_length in HL. exact HL.
    + eauto.
  - destruct HL as (l & HL & HU). destruct (truncate_mem_inv w g id upto l HI HL) as (w' & H1 & H2 & H3 & H4); [lia|]. rewrite H1.
    exists w'. split; [reflexivity|]. split; [exact H2|split; [exact H3|apply H4; lia]].
  - destruct HL as ((l & HL & HU) & HC). destruct (truncate_mem_inv w g id upto l HI HL HU) as (w' & H1 & H2 & H3 & _). rewrite H1.
    eexists. split; [reflexivity|]. cbn [gstep]. apply truncate_inv; auto.
  - eexists. split; [reflexivity|]. destruct HI as (HB & HM & HD). apply truncate_inv; auto.
  - destruct (rollback_inv w g id to HI HL) as (w' & H1 & H2). rewrite H1. eauto.
  - eexists. split; [reflexivity|]. apply create_inv; auto.
  - destruct HL as ((l & HL) & HW). eexists. split; [reflexivity|]. eapply remove_inv; eauto.
  - destruct (restart_inv w g keep HI) as (w' & cb & H1 & H2 & _). rewrite H1. eauto.
Qed.
Lemma reached_inv w g : reached w g -> inv w g.
Proof.
  induction 1 as [|w g o w' H IH HL HE]; [apply fresh_inv|]. destruct (exec_inv w g o IH HL) as (w2 & H1 & H2). assert (w2 = w') by congruence. now subst.
Qed.
