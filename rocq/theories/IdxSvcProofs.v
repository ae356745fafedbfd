(** Proofs about the registry of index tables. *)
From Coq Require Import List Arith ZArith Lia Bool Permutation.
From Verif Require Import IdxSvcModel IdxSvcSpec.
Import ListNotations.

Lemma seen_snoc l o : seen (l ++ [o]) = watch (seen l) o.
Proof. unfold seen. rewrite fold_left_app. reflexivity. Qed.

Lemma find_in k m t : find k m = Some t -> In (k, t) m.
Proof.
  induction m as [|[k' t'] m IH]; cbn; [discriminate|].
  destruct (Nat.eqb_spec k' k) as [->|]; [intros [= ->]; now left|right; auto].
Qed.

Lemma find_none k m : find k m = None <-> ~ In k (map fst m).
Proof.
  induction m as [|[k' t'] m IH]; cbn; [tauto|].
  destruct (Nat.eqb_spec k' k) as [->|N]; [split; [discriminate|intros X; elim X; now left]|].
  rewrite IH. split; [intros X [Y|Y]; [contradiction|tauto]|tauto].
Qed.

Lemma in_find k m t : NoDup (map fst m) -> In (k, t) m -> find k m = Some t.
Proof.
  induction m as [|[k' t'] m IH]; cbn; [contradiction|]. intros N X. inversion N as [|? ? N1 N2]; subst.
  destruct (Nat.eqb_spec k' k) as [->|NE].
  - destruct X as [X|X]; [congruence|]. elim N1. apply (in_map fst) in X. exact X.
  - destruct X as [X|X]; [congruence|]. auto.
Qed.

Lemma reserved_iff s o : reserved s o = true <-> In o (res s).
Proof.
  unfold reserved. rewrite existsb_exists. split.
  - intros (x & X & E). apply Nat.eqb_eq in E. now subst x.
  - intros X. exists o. split; [exact X|apply Nat.eqb_refl].
Qed.

Lemma reserved_not s o : reserved s o = false <-> ~ In o (res s).
Proof. rewrite <- reserved_iff. destruct (reserved s o); split; congruence. Qed.

(** A map that holds exactly the tables [l] under the key [f]. *)
Definition holds (f : tbl -> nat) (m : list (nat * tbl)) (l : list tbl) : Prop :=
  NoDup (map fst m) /\ (forall k t, In (k, t) m <-> In t l /\ k = f t) /\ length m = length l.

Lemma holds_insert f m l t : holds f m l -> (forall t', In t' l -> f t' <> f t) ->
  holds f (insert (f t) t m) (t :: l).
Proof.
  intros (N & I & L) F. unfold insert.
  assert (Z : find (f t) m = None).
  { apply find_none. intros X. apply in_map_iff in X. destruct X as ([k t'] & X1 & X2). cbn in X1. subst k.
    apply I in X2. destruct X2 as [X2 X3]. exact (F t' X2 (eq_sym X3)). }
  rewrite Z. split; [|split].
  - cbn. constructor; [apply find_none; exact Z|exact N].
  - intros k t'. cbn. rewrite I. split.
    + intros [X|[X Y]]; [injection X as <- <-; auto|auto].
    + intros [[<-|X] ->]; [now left|right; auto].
  - cbn. now rewrite L.
Qed.

Lemma erase_none k m : ~ In k (map fst m) -> erase k m = m.
Proof.
  induction m as [|[a b] m IH]; cbn; intros N; [reflexivity|].
  destruct (Nat.eqb_spec a k) as [->|NE]; cbn; [elim N; now left|]. f_equal. apply IH. tauto.
Qed.

Lemma erase_length k m : NoDup (map fst m) -> In k (map fst m) -> S (length (erase k m)) = length m.
Proof.
  induction m as [|[a b] m IH]; cbn; intros N X; [contradiction|]. inversion N as [|? ? N1 N2]; subst.
  destruct (Nat.eqb_spec a k) as [->|NE]; cbn.
  - fold (erase k m). rewrite erase_none by assumption. reflexivity.
  - destruct X as [X|X]; [contradiction|]. rewrite <- (IH N2 X). reflexivity.
Qed.

Lemma remove_length_nd (l : list tbl) t : NoDup l -> In t l -> S (length (remove tbl_eq_dec t l)) = length l.
Proof.
  induction l as [|a l IH]; cbn; intros N X; [contradiction|]. inversion N as [|? ? N1 N2]; subst.
  destruct (tbl_eq_dec t a) as [->|NE].
  - rewrite notin_remove by assumption. reflexivity.
  - destruct X as [X|X]; [congruence|]. cbn. now rewrite (IH N2 X).
Qed.

Lemma holds_erase f m l t : holds f m l -> NoDup l -> In t l -> (forall t', In t' l -> f t' = f t -> t' = t) ->
  holds f (erase (f t) m) (remove tbl_eq_dec t l).
Proof.
  intros (N & I & L) ND X F. split; [|split].
  - clear I L. induction m as [|[a b] m IH]; cbn; [constructor|]. inversion N as [|? ? N1 N2]; subst.
    destruct (a =? f t); cbn; [apply IH; exact N2|]. constructor; [|apply IH; exact N2].
    intros Y. apply N1. apply in_map_iff in Y. destruct Y as (z & Y1 & Y2). apply filter_In in Y2.
    apply in_map_iff. exists z. tauto.
  - intros k t'. unfold erase. rewrite filter_In, I. cbn. rewrite negb_true_iff, Nat.eqb_neq. split.
    + intros [[Y ->] Z]. split; [|reflexivity]. apply in_in_remove; [congruence|exact Y].
    + intros [Y ->]. apply in_remove in Y. destruct Y as [Y Z]. split; [auto|]. intros E. apply Z. apply F; auto.
  - assert (K : In (f t) (map fst m)).
    { apply in_map_iff. exists (f t, t). split; [reflexivity|]. apply I. auto. }
    assert (A := erase_length _ _ N K). assert (B := remove_length_nd _ _ ND X). lia.
Qed.

Lemma holds_find f m l t k : holds f m l -> find k m = Some t <-> In t l /\ f t = k.
Proof.
  intros (N & I & L). split.
  - intros X. apply find_in in X. apply I in X. destruct X as [X ->]. auto.
  - intros [X <-]. apply in_find; [exact N|]. apply I. auto.
Qed.

Lemma holds_perm f m l l' : holds f m l -> Permutation l l' -> holds f m l'.
Proof.
  intros (N & I & L) P. split; [exact N|]. split; [|rewrite L; apply Permutation_length; exact P].
  intros k t. rewrite I. split; intros [X Y]; (split; [|exact Y]).
  - exact (Permutation_in _ P X).
  - exact (Permutation_in _ (Permutation_sym P) X).
Qed.

Definition inj (f : tbl -> nat) (l : list tbl) : Prop :=
  forall a b, In a l -> In b l -> f a = f b -> a = b.

Record Inv (s : state) (v : view) : Prop := MkInv {
  v_sbs : sbs s = existing v;
  v_nd : NoDup (existing v);
  v_ndr : NoDup (registered v);
  v_sub : forall t, In t (registered v) -> In t (existing v);
  v_lv : forall t, In t (leaving v) -> ~ In t (registered v);
  v_ev : forall t, In t (existing v) \/ In t (dead s) -> In t (ever v);
  v_dead : forall t, In t (dead s) -> ~ In t (existing v);
  v_um : holds uuid (um s) (registered v);
  v_om : holds ord (om s) (registered v);
  v_iu : inj uuid (existing v);
  v_io : inj ord (existing v);
  v_res : forall t, In t (existing v) -> ~ In t (leaving v) -> In (ord t) (res s) }.

Lemma holds_nil f : holds f [] [].
Proof. split; [constructor|]. split; [|reflexivity]. intros k t. cbn. tauto. Qed.

Lemma inj_sub f l l' : inj f l -> (forall t, In t l' -> In t l) -> inj f l'.
Proof. intros I S a b A B. apply I; auto. Qed.

Lemma load_all : forall l s rg,
  holds uuid (um s) rg -> holds ord (om s) rg -> NoDup rg -> NoDup l ->
  inj uuid (l ++ rg) -> inj ord (l ++ rg) -> (forall t, In t l -> ~ In t rg) ->
  (forall t, In t rg -> In (ord t) (res s)) ->
  let s' := fold_left load l s in
  holds uuid (um s') (rev l ++ rg) /\ holds ord (om s') (rev l ++ rg) /\ sbs s' = sbs s /\ dead s' = dead s /\
  (forall t, In t (l ++ rg) -> In (ord t) (res s')).
Proof.
  induction l as [|t l IH]; intros s rg HU HO NR NL IU IO D R; cbn [fold_left rev app].
  - auto.
  - inversion NL as [|? ? N1 N2]; subst.
    assert (FU : forall t', In t' rg -> uuid t' <> uuid t).
    { intros t' X E. apply (D t (or_introl eq_refl)).
      rewrite <- (IU t' t); [exact X| | |exact E]; apply in_app_iff; [now right|left; now left]. }
    assert (FO : forall t', In t' rg -> ord t' <> ord t).
    { intros t' X E. apply (D t (or_introl eq_refl)).
      rewrite <- (IO t' t); [exact X| | |exact E]; apply in_app_iff; [now right|left; now left]. }
    assert (SUB : forall x, In x (l ++ t :: rg) -> In x ((t :: l) ++ rg)).
    { intros x X. apply in_app_iff in X. apply in_app_iff. cbn in *. tauto. }
    assert (RM : um (reserve s (ord t)) = um s /\ om (reserve s (ord t)) = om s /\ sbs (reserve s (ord t)) = sbs s /\ dead (reserve s (ord t)) = dead s /\
                 (forall o, In o (res (reserve s (ord t))) <-> o = ord t \/ In o (res s))).
    { unfold reserve. destruct (reserved s (ord t)) eqn:E; cbn; repeat split; auto.
      - intros [->|X]; [now apply reserved_iff|exact X].
      - intros [X|X]; [left; congruence|now right].
      - intros [X|X]; [left; congruence|now right]. }
    destruct RM as (M1 & M2 & M3 & M5 & M4).
    assert (HU' : holds uuid (um (load s t)) (t :: rg)).
    { unfold load, add. cbn. rewrite M1. apply holds_insert; assumption. }
    assert (HO' : holds ord (om (load s t)) (t :: rg)).
    { unfold load, add. cbn. rewrite M2. apply holds_insert; assumption. }
    assert (R' : forall x, In x (t :: rg) -> In (ord x) (res (load s t))).
    { unfold load, add. cbn [res]. intros x [->|X]; apply M4; [now left|right; now apply R]. }
    destruct (IH (load s t) (t :: rg) HU' HO') as (A & B & C & C2 & E); auto.
    + constructor; [|exact NR]. apply D. now left.
    + eapply inj_sub; eauto.
    + eapply inj_sub; eauto.
    + intros x X [->|Y]; [contradiction|]. apply (D x); [now right|exact Y].
    + rewrite <- !app_assoc. cbn [app]. split; [exact A|]. split; [exact B|]. split; [|split].
      * rewrite C. exact M3.
      * rewrite C2. exact M5.
      * intros x X. apply E. apply in_app_iff. cbn in *. rewrite in_app_iff in X. tauto.
Qed.

Lemma NoDup_snoc {A} (l : list A) x : NoDup l -> ~ In x l -> NoDup (l ++ [x]).
Proof.
  intros N X. apply Permutation_NoDup with (x :: l); [|constructor; assumption].
  apply Permutation_cons_append.
Qed.

Lemma inj_add f l t : inj f l -> (forall t', In t' l -> f t' <> f t) -> inj f (l ++ [t]).
Proof.
  intros I F a b A B E. apply in_app_iff in A, B. cbn in A, B.
  destruct A as [A|[<-|[]]], B as [B|[<-|[]]]; auto.
  - elim (F a A E).
  - elim (F b B (eq_sym E)).
Qed.

Lemma NoDup_remove_t t (l : list tbl) : NoDup l -> NoDup (remove tbl_eq_dec t l).
Proof.
  induction l as [|a l IH]; cbn; intros N; [constructor|].
  inversion N as [|? ? N1 N2]; subst. destruct (tbl_eq_dec t a); [auto|]. constructor; [|auto].
  intros X. apply in_remove in X. tauto.
Qed.

Lemma is_dead_iff s t : is_dead s t = true <-> In t (dead s).
Proof.
  unfold is_dead. rewrite existsb_exists. split.
  - intros (x & X & E). destruct (tbl_eq_dec x t) as [->|]; [exact X|discriminate].
  - intros X. exists t. split; [exact X|]. destruct (tbl_eq_dec t t); congruence.
Qed.

Lemma alive s v t : Inv s v -> In t (existing v) -> is_dead s t = false.
Proof.
  intros I X. destruct (is_dead s t) eqn:E; [|reflexivity]. apply is_dead_iff in E.
  elim (v_dead _ _ I t E X).
Qed.

Lemma step_ok s v o : Inv s v -> polite v s o -> exists s', step s o = Some s'.
Proof.
  intros I P. destruct o as [t|t|t|t|t|lo]; cbn in *; eauto.
  - rewrite (alive s v t I) by tauto. eauto.
  - rewrite (alive s v t I) by (apply (v_sub _ _ I); exact P). eauto.
Qed.

Lemma create_inv s v t : Inv s v -> fresh v t -> leaving v = [] -> reserved s (ord t) = false ->
  Inv (St (ord t :: res s) (um s) (om s) (sbs s ++ [t]) (dead s))
      (View (existing v ++ [t]) (registered v) (leaving v) (t :: ever v)).
Proof.
  intros I F L RF.
  assert (FU : forall t', In t' (existing v) -> uuid t' <> uuid t).
  { intros t' X. apply F. apply (v_ev _ _ I). now left. }
  assert (FO : forall t', In t' (existing v) -> ord t' <> ord t).
  { intros t' X Y. apply reserved_not in RF. apply RF. rewrite <- Y. apply (v_res _ _ I); [exact X|].
    rewrite L. intros []. }
  constructor; cbn.
  - now rewrite (v_sbs _ _ I).
  - apply NoDup_snoc; [apply (v_nd _ _ I)|]. intros X. exact (FU t X eq_refl).
  - apply (v_ndr _ _ I).
  - intros x X. apply in_app_iff. left. now apply (v_sub _ _ I).
  - apply (v_lv _ _ I).
  - intros x [X|X]; [apply in_app_iff in X; destruct X as [X|[X|[]]]|]; auto; right; apply (v_ev _ _ I); auto.
  - intros x X Y. apply in_app_iff in Y. destruct Y as [Y|[<-|[]]]; [exact (v_dead _ _ I x X Y)|].
    apply (F t); [|reflexivity]. apply (v_ev _ _ I). now right.
  - apply (v_um _ _ I).
  - apply (v_om _ _ I).
  - apply inj_add; [apply (v_iu _ _ I)|exact FU].
  - apply inj_add; [apply (v_io _ _ I)|exact FO].
  - intros x X Y. apply in_app_iff in X. destruct X as [X|[<-|[]]]; [right; now apply (v_res _ _ I)|now left].
Qed.

Lemma step_inv s v o s' : Inv s v -> env s o -> polite v s o -> step s o = Some s' -> Inv s' (watch v o).
Proof.
  intros I E P S1. destruct o as [t|t|t|t|t|lo]; cbn [env polite step watch] in *.
  - destruct P as [P1 P2]. injection S1 as <-. unfold reserve. rewrite E. cbn. now apply create_inv.
  - destruct P as (P1 & P2 & P3). injection S1 as <-. unfold reserve. rewrite P3. cbn. now apply create_inv.
  - destruct P as (P1 & P2 & P3). destruct (is_dead s t); [discriminate|]. injection S1 as <-.
    assert (FF : forall f, inj f (existing v) -> forall t', In t' (registered v) -> f t' <> f t).
    { intros f J t' X Y. apply P2. rewrite <- (J t' t); [exact X| | |exact Y]; [now apply (v_sub _ _ I)|exact P1]. }
    constructor; cbn.
    + apply (v_sbs _ _ I).
    + apply (v_nd _ _ I).
    + constructor; [exact P2|apply (v_ndr _ _ I)].
    + intros x [<-|X]; [exact P1|now apply (v_sub _ _ I)].
    + intros x X [<-|Y]; [contradiction|exact (v_lv _ _ I x X Y)].
    + apply (v_ev _ _ I).
    + apply (v_dead _ _ I).
    + apply holds_insert; [apply (v_um _ _ I)|apply FF; apply (v_iu _ _ I)].
    + apply holds_insert; [apply (v_om _ _ I)|apply FF; apply (v_io _ _ I)].
    + apply (v_iu _ _ I).
    + apply (v_io _ _ I).
    + apply (v_res _ _ I).
  - destruct (is_dead s t); [discriminate|]. injection S1 as <-. unfold remove_tbl.
    assert (PE : In t (existing v)) by (now apply (v_sub _ _ I)).
    assert (RT : reserved s (ord t) = true).
    { apply reserved_iff. apply (v_res _ _ I); [exact PE|]. intros X. exact (v_lv _ _ I t X P). }
    rewrite RT. constructor; cbn.
    + apply (v_sbs _ _ I).
    + apply (v_nd _ _ I).
    + apply NoDup_remove_t, (v_ndr _ _ I).
    + intros x X. apply in_remove in X. apply (v_sub _ _ I). tauto.
    + intros x [<-|X] Y; apply in_remove in Y; [tauto|]. exact (v_lv _ _ I x X (proj1 Y)).
    + apply (v_ev _ _ I).
    + apply (v_dead _ _ I).
    + apply holds_erase; [apply (v_um _ _ I)|apply (v_ndr _ _ I)|exact P|].
      intros x X Y. apply (v_iu _ _ I); [now apply (v_sub _ _ I)|exact PE|exact Y].
    + apply holds_erase; [apply (v_om _ _ I)|apply (v_ndr _ _ I)|exact P|].
      intros x X Y. apply (v_io _ _ I); [now apply (v_sub _ _ I)|exact PE|exact Y].
    + apply (v_iu _ _ I).
    + apply (v_io _ _ I).
    + intros x X Y. apply in_in_remove.
      * intros W. apply Y. left. symmetry. apply (v_io _ _ I); assumption.
      * apply (v_res _ _ I); [exact X|]. intros Z. apply Y. now right.
  - destruct P as [P1 P2]. injection S1 as <-.
    assert (SUB : forall x, In x (remove tbl_eq_dec t (existing v)) -> In x (existing v) /\ x <> t).
    { intros x X. apply in_remove in X. tauto. }
    constructor; cbn.
    + now rewrite (v_sbs _ _ I).
    + apply NoDup_remove_t, (v_nd _ _ I).
    + apply (v_ndr _ _ I).
    + intros x X. apply in_in_remove; [congruence|now apply (v_sub _ _ I)].
    + intros x X. apply in_remove in X. apply (v_lv _ _ I). tauto.
    + intros x [X|[<-|X]]; apply (v_ev _ _ I); [left; apply (SUB x X)|now left|now right].
    + intros x [<-|X] Y; apply SUB in Y; [tauto|]. exact (v_dead _ _ I x X (proj1 Y)).
    + apply (v_um _ _ I).
    + apply (v_om _ _ I).
    + eapply inj_sub; [apply (v_iu _ _ I)|intros x X; apply (SUB x X)].
    + eapply inj_sub; [apply (v_io _ _ I)|intros x X; apply (SUB x X)].
    + intros x X Y. apply SUB in X. destruct X as [X1 X2]. apply (v_res _ _ I); [exact X1|].
      intros Z. apply Y. apply in_in_remove; assumption.
  - injection S1 as <-. rewrite (v_sbs _ _ I) in *.
    assert (SUB : forall x, In x lo -> In x (existing v)) by (intros x X; exact (Permutation_in _ E X)).
    assert (NL : NoDup lo) by (eapply Permutation_NoDup; [apply Permutation_sym; exact E|apply (v_nd _ _ I)]).
    destruct (load_all lo (St [] [] [] (existing v) []) []) as (A & B & C & C2 & R).
    + apply holds_nil.
    + apply holds_nil.
    + constructor.
    + exact NL.
    + rewrite app_nil_r. eapply inj_sub; [apply (v_iu _ _ I)|exact SUB].
    + rewrite app_nil_r. eapply inj_sub; [apply (v_io _ _ I)|exact SUB].
    + intros t _ [].
    + intros t [].
    + rewrite app_nil_r in A, B, R.
      assert (PM : Permutation (rev lo) (existing v)).
      { eapply Permutation_trans; [apply Permutation_sym, Permutation_rev|exact E]. }
      constructor; cbn [existing registered leaving ever].
      * rewrite C. reflexivity.
      * apply (v_nd _ _ I).
      * apply (v_nd _ _ I).
      * auto.
      * intros t [].
      * rewrite C2. cbn. intros t [X|[]]. apply (v_ev _ _ I). now left.
      * rewrite C2. intros t [].
      * eapply holds_perm; eauto.
      * eapply holds_perm; eauto.
      * apply (v_iu _ _ I).
      * apply (v_io _ _ I).
      * intros x X _. apply R. exact (Permutation_in _ (Permutation_sym E) X).
Qed.

Lemma init_inv : Inv init (seen []).
Proof.
  constructor; cbn; try apply holds_nil; try (intros; contradiction); try reflexivity; try (now constructor); try (intros a b []).
  intros t [[]|[]].
Qed.

Lemma reach l s : pruns l s -> Inv s (seen l).
Proof.
  induction 1 as [|l s o s' R IH E P S1]; [apply init_inv|]. rewrite seen_snoc. eapply step_inv; eauto.
Qed.

(** *** Sizes *)

Lemma to_int_small x : (- 2 ^ 31 <= x < 2 ^ 31)%Z -> to_int x = x.
Proof. intros H. unfold to_int. rewrite Z.mod_small; lia. Qed.

Lemma to_u64_small x : (0 <= x < 2 ^ 64)%Z -> to_u64 x = x.
Proof. intros H. unfold to_u64. apply Z.mod_small. exact H. Qed.

Lemma total_app a b : total (a ++ b) = (total a + total b)%Z.
Proof. induction a as [|t a IH]; cbn; [reflexivity|]. rewrite IH. lia. Qed.

Lemma total_nonneg l : (forall t, In t l -> 0 <= size t)%Z -> (0 <= total l)%Z.
Proof.
  induction l as [|t l IH]; cbn; intros H; [lia|].
  assert (0 <= size t)%Z by (apply H; now left). assert (0 <= total l)%Z by (apply IH; intros; apply H; now right). lia.
Qed.

Lemma fold_sizes : forall (m : list (nat * tbl)) a, (0 <= a)%Z -> (forall t, In t (map snd m) -> 0 <= size t)%Z ->
  (a + total (map snd m) < 2 ^ 31)%Z ->
  fold_left (fun a x => to_int (to_u64 (to_u64 a + to_u64 (size (snd x))))) m a = (a + total (map snd m))%Z.
Proof.
  induction m as [|[k t] m IH]; intros a A P B; cbn [fold_left map total snd] in *; [lia|].
  assert (0 <= size t)%Z by (apply P; now left).
  assert (0 <= total (map snd m))%Z by (apply total_nonneg; intros; apply P; now right).
  rewrite (to_u64_small a), (to_u64_small (size t)), (to_u64_small (a + size t)), to_int_small by lia.
  rewrite IH; [lia|lia| |lia]. intros x X. apply P. now right.
Qed.

Lemma total_perm l l' : Permutation l l' -> total l = total l'.
Proof. induction 1; cbn; lia. Qed.

Lemma holds_tables f m l : NoDup l -> holds f m l -> Permutation (map snd m) l.
Proof.
  intros ND (N & I & L).
  assert (NS : NoDup (map snd m)).
  { assert (Q : forall k t, In (k, t) m -> k = f t) by (intros k t X; now apply I in X). clear I L.
    induction m as [|[k t] m IH]; cbn; [constructor|]. inversion N as [|? ? N1 N2]; subst. constructor.
    - intros X. apply in_map_iff in X. destruct X as ([k' t'] & X1 & X2). cbn in X1. subst t'. apply N1.
      rewrite (Q k t (or_introl eq_refl)), <- (Q k' t (or_intror X2)). apply (in_map fst) in X2. exact X2.
    - apply IH; [exact N2|]. intros k' t' X. apply Q. now right. }
  apply NoDup_Permutation; [exact NS|exact ND|].
  intros t. rewrite in_map_iff. split.
  - intros ([k t'] & X1 & X2). cbn in X1. subst t'. apply I in X2. tauto.
  - intros X. exists (f t, t). split; [reflexivity|]. apply I. auto.
Qed.

(** *** Building runs *)

Lemma pruns_step pre l s o s' e : pruns pre s -> env s o -> polite (seen pre) s o -> step s o = Some s' ->
  (pruns (pre ++ [o]) s' -> pruns ((pre ++ [o]) ++ l) e) -> pruns (pre ++ o :: l) e.
Proof.
  intros R E P S1 K. change (o :: l) with ([o] ++ l). rewrite app_assoc. apply K. econstructor; eauto.
Qed.

Lemma runs_step pre l s o s' e : runs pre s -> env s o -> step s o = Some s' ->
  (runs (pre ++ [o]) s' -> runs ((pre ++ [o]) ++ l) e) -> runs (pre ++ o :: l) e.
Proof.
  intros R E S1 K. change (o :: l) with ([o] ++ l). rewrite app_assoc. apply K. econstructor; eauto.
Qed.
