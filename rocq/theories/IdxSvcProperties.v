(** Theorems about the registry of index tables. *)
From Coq Require Import List Arith ZArith Lia Bool Permutation.
From Verif Require Import IdxSvcModel IdxSvcSpec IdxSvcProofs.
Import ListNotations.

(** ** C152: looking up tables *)

(** A lookup by uuid or by ordinal finds exactly the registered table that has
    it, and the number of tables is right. *)
Theorem c152_lookup : forall l s, pruns l s ->
  (forall u t, by_uuid s u = Some t <-> In t (registered (seen l)) /\ uuid t = u) /\
  (forall o t, by_ord s o = Some t <-> In t (registered (seen l)) /\ ord t = o) /\
  num_tables s = length (registered (seen l)).
Proof.
  intros l s R. apply reach in R. split; [|split].
  - intros u t. apply holds_find. apply (v_um _ _ R).
  - intros o t. apply holds_find. apply (v_om _ _ R).
  - apply (v_um _ _ R).
Qed.
Print Assumptions c152_lookup.

(** Two tables that exist have different ordinals and different uuids. *)
Theorem c152_distinct : forall l s, pruns l s -> forall a b,
  In a (existing (seen l)) -> In b (existing (seen l)) ->
  ord a = ord b \/ uuid a = uuid b -> a = b.
Proof.
  intros l s R a b A B [E|E]; apply reach in R.
  - now apply (v_io _ _ R).
  - now apply (v_iu _ _ R).
Qed.
Print Assumptions c152_distinct.

(** After a restart, whatever the order in which superblocks are found, the
    registered tables are those that exist. *)
Theorem c152_restart : forall l s lo s', pruns l s -> Permutation lo (sbs s) -> step s (Restart lo) = Some s' ->
  (forall o t, by_ord s' o = Some t <-> In t (existing (seen l)) /\ ord t = o) /\
  (forall u t, by_uuid s' u = Some t <-> In t (existing (seen l)) /\ uuid t = u) /\
  (forall t, In t (existing (seen l)) -> reserved s' (ord t) = true) /\
  (forall t, In t (sbs s') <-> In t (existing (seen l))).
Proof.
  intros l s lo s' R P S1. assert (I := reach _ _ R).
  assert (I' := step_inv _ _ (Restart lo) s' I P Logic.I S1). cbn in I'.
  split; [|split; [|split]].
  - intros o t. apply (holds_find ord). apply (v_om _ _ I').
  - intros u t. apply (holds_find uuid). apply (v_um _ _ I').
  - intros t X. apply reserved_iff. apply (v_res _ _ I'); [exact X|intros []].
  - intros t. rewrite (v_sbs _ _ I'). tauto.
Qed.
Print Assumptions c152_restart.

(** No call of a polite caller reads a null pointer, and a table that is
    registered keeps its ordinal reserved. *)
Theorem c152_no_fault : forall l s, pruns l s ->
  (forall o, env s o -> polite (seen l) s o -> exists s', step s o = Some s') /\
  (forall t, In t (registered (seen l)) -> reserved s (ord t) = true).
Proof.
  intros l s R. apply reach in R. split.
  - intros o _ P. eapply step_ok; eauto.
  - intros t X. apply reserved_iff. apply (v_res _ _ R); [now apply (v_sub _ _ R)|].
    intros Y. exact (v_lv _ _ R t Y X).
Qed.
Print Assumptions c152_no_fault.

(** *** A run: two tables, one dropped, its ordinal used again, a restart *)

Definition ta := Tbl 1 10 0 4096%Z.
Definition tb := Tbl 2 20 1 8192%Z.
Definition tc := Tbl 3 30 0 100%Z.

Definition good : list op :=
  [Create ta; Add ta; CreateAt tb; Add tb; Remove ta; Destroy ta; Create tc; Add tc; Restart [tc; tb]].


Ltac side := cbn; unfold fresh; cbn;
  repeat match goal with |- _ /\ _ => split end;
  try reflexivity; try exact Logic.I; try apply perm_swap; try tauto;
  try (intros t' X; intuition (subst; discriminate)); try (intuition discriminate).

Ltac walk := match goal with
  | |- pruns ?l _ => change l with ([] ++ l); generalize pruns_nil
  | |- runs ?l _ => change l with ([] ++ l); generalize runs_nil
  end;
  repeat (let R := fresh "R" in intros R;
    first [ eapply pruns_step; [exact R|side|side|reflexivity|clear R]
          | eapply runs_step; [exact R|side|reflexivity|clear R]
          | rewrite app_nil_r; exact R ]).

Example good_ok : exists s, pruns good s /\ by_ord s 0 = Some tc /\ by_ord s 1 = Some tb /\ num_tables s = 2.
Proof.
  eexists. split; [|split; [|split]].
  - unfold good. walk.
  - reflexivity.
  - reflexivity.
  - reflexivity.
Qed.

(** ** C153: callers that are not polite *)

(** The ordinal given to the constructor is not checked.  A table created with
    the ordinal of another is never found by its ordinal, and removing it makes
    the other impossible to find by ordinal, although still registered; the
    other's ordinal then is free to be handed out again. *)
Theorem c153_given_ordinal_refuted : exists l s a b,
  runs l s /\ l = [Create a; Add a; CreateAt b; Add b] /\ a <> b /\
  by_uuid s (uuid a) = Some a /\ by_uuid s (uuid b) = Some b /\ by_ord s (ord b) = Some a /\
  exists s', step s (Remove b) = Some s' /\ by_uuid s' (uuid a) = Some a /\ by_ord s' (ord a) = None /\
    reserved s' (ord a) = false.
Proof.
  exists [Create ta; Add ta; CreateAt tc; Add tc]. eexists. exists ta, tc. split.
  - walk.
  - repeat split; try discriminate. eexists. repeat split.
Qed.
Print Assumptions c153_given_ordinal_refuted.

(** A table must be removed before it is destroyed (the other order reads a null
    pointer), but its ordinal is given back when it is removed: a table created
    in between gets the same ordinal.  If the process stops before the first is
    destroyed, both are found at the restart, and the new one cannot be found by
    its ordinal. *)
Theorem c153_reuse_refuted : exists l s a b,
  runs l s /\ l = [Create a; Add a; Remove a; Create b; Add b; Restart [a; b]] /\ a <> b /\
  by_uuid s (uuid b) = Some b /\ ord a = ord b /\ by_ord s (ord b) = Some a.
Proof.
  exists [Create ta; Add ta; Remove ta; Create tc; Add tc; Restart [ta; tc]]. eexists. exists ta, tc. split.
  - walk.
  - repeat split; discriminate.
Qed.
Print Assumptions c153_reuse_refuted.

(** In every state, removing a table that has been destroyed reads a null
    pointer; while it is registered so does the sum of used sizes. *)
Theorem c153_destroy_first_refuted : forall s t s',
  step s (Destroy t) = Some s' ->
  step s' (Remove t) = None /\ (forall u, by_uuid s u = Some t -> used_size s' = None).
Proof.
  intros s t s' E. injection E as <-.
  assert (D : forall r u o b, is_dead (St r u o b (t :: dead s)) t = true)
    by (intros; apply is_dead_iff; now left).
  split.
  - cbn [step]. now rewrite D.
  - intros u X. apply find_in in X. unfold used_size. cbn [um].
    replace (existsb _ (um s)) with true; [reflexivity|]. symmetry. apply existsb_exists.
    exists (u, t). split; [exact X|]. apply D.
Qed.
Print Assumptions c153_destroy_first_refuted.

Example destroy_first : exists s s', runs [Create ta; Add ta] s /\ step s (Destroy ta) = Some s' /\
  by_uuid s (uuid ta) = Some ta.
Proof.
  eexists. eexists. split; [walk|split; reflexivity].
Qed.

(** ** C154: sum of used sizes *)

(** Below 2^31 bytes the sum is that of the registered tables. *)
Theorem c154_used_size_small : forall l s, pruns l s ->
  (forall t, In t (registered (seen l)) -> 0 <= size t)%Z -> (total (registered (seen l)) < 2 ^ 31)%Z ->
  used_size s = Some (total (registered (seen l))).
Proof.
  intros l s R P B. apply reach in R. unfold used_size.
  assert (T := holds_tables _ _ _ (v_ndr _ _ R) (v_um _ _ R)).
  replace (existsb (fun x => is_dead s (snd x)) (um s)) with false.
  - f_equal. rewrite <- (total_perm _ _ T) in *. assert (0 <= total (map snd (um s)))%Z.
    { apply total_nonneg. intros t X. apply P. exact (Permutation_in _ T X). }
    rewrite fold_sizes; [|lia| |lia].
    + rewrite Z.add_0_l. apply to_u64_small. lia.
    + intros t X. apply P. exact (Permutation_in _ T X).
  - symmetry. apply not_true_is_false. intros X. apply existsb_exists in X. destruct X as ([k t] & X1 & X2).
    cbn in X2. apply is_dead_iff in X2. apply (v_dead _ _ R t X2). apply (v_sub _ _ R).
    apply (Permutation_in _ T). apply (in_map snd) in X1. exact X1.
Qed.
Print Assumptions c154_used_size_small.

Example good_size : exists s, pruns good s /\ used_size s = Some 8292%Z.
Proof.
  destruct good_ok as (s & R & _). exists s. split; [exact R|]. rewrite (c154_used_size_small _ _ R); vm_compute; auto.
  - intros t [<-|[<-|[]]]; discriminate.
Qed.

(** From 2^31 bytes on it is not: one table of 3 GiB counts for almost 2^64
    bytes, and two of 2 GiB count for nothing. *)
Definition big := Tbl 1 10 0 3221225472%Z.
Definition big1 := Tbl 1 10 0 2147483648%Z.
Definition big2 := Tbl 2 20 1 2147483648%Z.

Theorem c154_used_size_refuted :
  (exists l s, pruns l s /\ total (registered (seen l)) = 3221225472%Z /\ used_size s = Some 18446744072635809792%Z) /\
  (exists l s, pruns l s /\ total (registered (seen l)) = 4294967296%Z /\ used_size s = Some 0%Z).
Proof.
  split.
  - exists [Create big; Add big]. eexists. split; [walk|split; reflexivity].
  - exists [Create big1; Add big1; Create big2; Add big2]. eexists. split; [walk|split; reflexivity].
Qed.
Print Assumptions c154_used_size_refuted.
