(** The placement of entries in a variable-size node. *)
From Coq Require Import NArith List Bool Arith Lia Sorting.Permutation.
From Coq Require Import ZifyBool ZifyNat ZifyN.
From Verif Require Import Base VarNodeModel VarNodeSpec.
Import ListNotations.
Local Open Scope N_scope.

(** ** Arithmetic of the fields *)

Lemma w16_small : forall x, x < 65536 -> w16 x = x.
Proof. intros. now apply N.mod_small. Qed.
Lemma w14_small : forall x, x < 16384 -> w14 x = x.
Proof. intros. now apply N.mod_small. Qed.
Lemma sub16_small : forall a b, b <= a -> a < 65536 -> sub16 a b = a - b.
Proof.
  intros a b H1 H2. unfold sub16. rewrite (N.mod_small b) by lia.
  replace (a + 65536 - b) with (a - b + 1 * 65536) by lia.
  rewrite N.mod_add by discriminate. apply N.mod_small. lia.
Qed.

(** ** Bytes *)

Lemma read_length : forall m o n, blen (read m o n) = n.
Proof. intros. unfold blen, read. rewrite map_length, seq_length. lia. Qed.

Lemma read_ext : forall m m' o o' n, (forall i, i < n -> m (o + i) = m' (o' + i)) ->
  read m o n = read m' o' n.
Proof.
  intros m m' o o' n H. apply map_ext_in. intros i Hi. apply in_seq in Hi. apply H. lia.
Qed.

Lemma read_app : forall m o a b, read m o (a + b) = read m o a ++ read m (o + a) b.
Proof.
  intros. unfold read. rewrite N2Nat.inj_add, seq_app, map_app. f_equal.
  replace (0 + N.to_nat a)%nat with (N.to_nat a + 0)%nat by lia. rewrite <- (map_id (seq 0 (N.to_nat b))) at 1.
  rewrite map_id. cbn.
  assert (H : forall k s, seq (N.to_nat a + s) k = map (Nat.add (N.to_nat a)) (seq s k)).
  { induction k as [|k IH]; intros s; [reflexivity|]. cbn. f_equal. rewrite <- IH. f_equal. lia. }
  rewrite H, map_map. apply map_ext. intros i. f_equal. lia.
Qed.

Lemma write_out : forall m o b a, a < o \/ o + blen b <= a -> write m o b a = m a.
Proof. intros m o b a H. unfold write. destruct (_ && _) eqn:E; [lia|reflexivity]. Qed.
Lemma write_in : forall m o b i, i < blen b -> write m o b (o + i) = nth (N.to_nat i) b 0.
Proof.
  intros m o b i H. unfold write. replace (_ && _) with true by lia. f_equal. lia.
Qed.

Lemma read_write_out : forall m o b o' n, o' + n <= o \/ o + blen b <= o' ->
  read (write m o b) o' n = read m o' n.
Proof. intros. apply read_ext. intros i Hi. apply write_out. lia. Qed.

Lemma read_write_part : forall m o a b c,
  read (write m o (a ++ b ++ c)) (o + blen a) (blen b) = b.
Proof.
  intros. unfold read. unfold blen at 2. rewrite Nat2N.id.
  apply nth_ext with 0 0; [now rewrite map_length, seq_length|].
  intros i Hi. rewrite map_length, seq_length in Hi.
  set (f := fun i0 : nat => _). rewrite (nth_indep _ 0 (f 0%nat)) by now rewrite map_length, seq_length.
  rewrite map_nth, seq_nth by assumption. subst f. cbn beta.
  rewrite <- N.add_assoc, write_in by (unfold blen; rewrite !app_length; lia).
  unfold blen. rewrite app_nth2 by lia. rewrite app_nth1 by lia. f_equal. lia.
Qed.

Lemma read_write_same : forall m o b, read (write m o b) o (blen b) = b.
Proof.
  intros. pose proof (read_write_part m o [] b []) as H. cbn in H.
  now rewrite app_nil_r, N.add_0_r in H.
Qed.
Lemma read_write_fst : forall m o a b, read (write m o (a ++ b)) o (blen a) = a.
Proof. intros. pose proof (read_write_part m o [] a b) as H. cbn in H. now rewrite N.add_0_r in H. Qed.
Lemma read_write_snd : forall m o a b, read (write m o (a ++ b)) (o + blen a) (blen b) = b.
Proof. intros. pose proof (read_write_part m o a b []) as H. now rewrite app_nil_r in H. Qed.

(** ** Lists by index *)

Lemma nth_error_ext : forall A (l l' : list A), (forall i, nth_error l i = nth_error l' i) -> l = l'.
Proof.
  intros A. induction l as [|x l IH]; intros [|y l'] H.
  - reflexivity.
  - specialize (H 0%nat). discriminate.
  - specialize (H 0%nat). discriminate.
  - pose proof (H 0%nat) as H0. cbn in H0. injection H0 as ->. f_equal. apply IH.
    intros i. exact (H (S i)).
Qed.

Lemma set_nth_length : forall A i (x : A) l, length (set_nth i x l) = length l.
Proof. intros A i x l. revert i. induction l; intros [|i]; cbn; auto. Qed.

Lemma set_nth_same : forall A i (x : A) l, (i < length l)%nat -> nth_error (set_nth i x l) i = Some x.
Proof. intros A i x l. revert i. induction l; intros [|i] H; cbn in *; try lia; auto. apply IHl. lia. Qed.

Lemma set_nth_other : forall A i j (x : A) l, i <> j -> nth_error (set_nth i x l) j = nth_error l j.
Proof. intros A i j x l. revert i j. induction l; intros [|i] [|j] H; cbn; auto; try lia. Qed.

Lemma set_nth_split : forall A i (x : A) l, (i < length l)%nat ->
  set_nth i x l = firstn i l ++ x :: skipn (S i) l.
Proof. intros A i x l. revert i. induction l; intros [|i] H; cbn in *; try lia; auto. f_equal. apply IHl. lia. Qed.

Lemma map_set_nth : forall A B (g : A -> B) i x l, map g (set_nth i x l) = set_nth i (g x) (map g l).
Proof. intros A B g i x l. revert i. induction l; intros [|i]; cbn; auto. now rewrite IHl. Qed.

(** ** Places *)

Section Kind.
Context (kd : kind).
Notation rs := (rec_size kd).
Notation os := (osize kd).

Lemma rs_small : 4 <= rs <= 6.
Proof. destruct kd; cbn; lia. Qed.

Definition apart (a b : rec) : Prop :=
  r_off a + os a <= r_off b \/ r_off b + os b <= r_off a.

Definition pairs (l : list rec) : Prop :=
  forall i j a b, nth_error l i = Some a -> nth_error l j = Some b -> i <> j -> apart a b.

Definition ents (m : mem) (l : list rec) : list ent :=
  map (fun r => (read m (r_off r) (ksize kd r), read m (r_off r + ksize kd r) (vsize kd r))) l.

Lemma entries_ents : forall nd, entries kd nd = ents (n_mem nd) (n_recs nd).
Proof. reflexivity. Qed.

Definition osum (l : list rec) : N := fold_right (fun r n => os r + n) 0 l.

Lemma osum_app : forall a b, osum (a ++ b) = osum a + osum b.
Proof. intros a b. unfold osum. induction a; cbn in *; lia. Qed.

Lemma used_app : forall a b, used kd (a ++ b) = used kd a + used kd b.
Proof. intros a b. unfold used. induction a; cbn in *; lia. Qed.

Lemma esize_ents : forall m r l, used kd (ents m (r :: l)) = os r + rs + used kd (ents m l).
Proof. intros. unfold used. cbn. unfold esize, osize. cbn. now rewrite !read_length. Qed.

Lemma used_ents : forall m l, used kd (ents m l) = osum l + N.of_nat (length l) * rs.
Proof.
  intros m l. induction l as [|r l IH]; [reflexivity|]. rewrite esize_ents, IH. cbn [osum length fold_right].
  fold (osum l). nia.
Qed.

Record inv (data : N) (nd : node) : Prop := Inv {
  i_data : n_data nd = data;
  i_init : n_init nd = data;
  i_small : data < 16384;
  i_tail : hdr + N.of_nat (count nd) * rs <= n_tail nd <= data;
  i_avail : n_avail nd + hdr + used kd (entries kd nd) = data;
  i_place : forall r, In r (n_recs nd) -> n_tail nd <= r_off r /\ r_off r + os r <= data;
  i_pairs : pairs (n_recs nd) }.

(** A place that is below all others, or an end, does not matter to them. *)
Lemma ents_write_out : forall m o b l,
  (forall r, In r l -> r_off r + os r <= o \/ o + blen b <= r_off r) ->
  ents (write m o b) l = ents m l.
Proof.
  intros m o b l H. apply map_ext_in. intros r Hr. specialize (H r Hr). unfold osize in H.
  f_equal; apply read_write_out; lia.
Qed.

Lemma ents_nth : forall m l i, nth_error (ents m l) i =
  option_map (fun r => (read m (r_off r) (ksize kd r), read m (r_off r + ksize kd r) (vsize kd r)))
    (nth_error l i).
Proof. intros. unfold ents. apply nth_error_map. Qed.

(** ** Compaction *)

Lemma set_nth_id : forall A i (x : A) l, nth_error l i = Some x -> set_nth i x l = l.
Proof. intros A i x l. revert i. induction l; intros [|i] H; cbn in *; try congruence. f_equal. auto. Qed.

Definition wsum (L : list N) (order : list (N * nat)) : N :=
  fold_right (fun x n => nth (snd x) L 0 + n) 0 order.

Lemma compact_loop_ok : forall data n L, data < 16384 -> forall order recs m last,
  length recs = n -> map (os) recs = L -> last <= data ->
  NoDup (map snd order) -> desc order ->
  (forall off i, In (off, i) order ->
     exists r, nth_error recs i = Some r /\ r_off r = off /\ off + os r <= last) ->
  (forall i r, nth_error recs i = Some r -> ~ In i (map snd order) ->
     last <= r_off r /\ r_off r + os r <= data) ->
  pairs recs -> hdr + N.of_nat n * rs + wsum L order <= last ->
  exists recs' m' last', compact_loop kd data n order recs m last = Ok (recs', m', last') /\
    last' + wsum L order = last /\ length recs' = n /\
    (forall r, In r recs' -> last' <= r_off r /\ r_off r + os r <= data) /\
    pairs recs' /\ ents m' recs' = ents m recs.
Proof.
  intros data n L Hdata. induction order as [|[off i] order IH];
    intros recs m last Hlen HL Hlast HND HD Hun Hdone HP Hroom.
  - exists recs, m, last. cbn [compact_loop wsum fold_right]. split; [reflexivity|].
    split; [lia|]. split; [assumption|]. split; [|split; [assumption|reflexivity]].
    intros r Hr. apply In_nth_error in Hr. destruct Hr as [i Hi]. apply (Hdone i r Hi). intros [].
  - destruct (Hun off i (or_introl eq_refl)) as [r [Hr [Hoff Hend]]].
    cbn [compact_loop]. rewrite Hr.
    cbn [map snd] in HND. inversion HND as [|? ? Hni HND']; subst x l. destruct HD as [HD1 HD2].
    assert (Hnl : nth i L 0 = os r).
    { rewrite <- HL. erewrite nth_error_nth; [reflexivity|]. now rewrite nth_error_map, Hr. }
    assert (Hroom' : hdr + N.of_nat n * rs + wsum L order + os r <= last).
    { cbn [wsum fold_right snd] in Hroom. fold (wsum L order) in Hroom. lia. }
    assert (Hw : w16 (os r) = os r) by (apply w16_small; lia). rewrite Hw.
    rewrite (w16_small (off + os r)) by lia. rewrite sub16_small by lia.
    (* the others that are not done lie below the new place *)
    assert (Hbelow : forall off' j, In (off', j) order ->
      exists a, nth_error recs j = Some a /\ r_off a = off' /\ off' + os a <= last - os r).
    { intros off' j Hj. destruct (Hun off' j (or_intror Hj)) as [a [Ha [Hao Hae]]].
      exists a. split; [assumption|]. split; [assumption|].
      rewrite Forall_forall in HD1. specialize (HD1 _ Hj). cbn [fst] in HD1.
      assert (Hij : i <> j).
      { intros <-. apply Hni. apply in_map_iff. now exists (off', i). }
      destruct (HP i j r a Hr Ha Hij) as [H|H]; lia. }
    assert (Hge : last - os r <= last) by lia.
    pose (r' := Rec (last - os r) (r_klen r) (r_vlen r)).
    assert (Hoff' : r_off r' = last - os r) by reflexivity.
    assert (Hos' : os r' = os r) by (unfold osize, ksize, vsize; destruct kd; reflexivity).
    assert (Hks' : ksize kd r' = ksize kd r) by (unfold ksize; destruct kd; reflexivity).
    assert (Hvs' : vsize kd r' = vsize kd r) by (unfold vsize; destruct kd; reflexivity).
    assert (Hi : (i < length recs)%nat) by (apply nth_error_Some; congruence).
    pose (recs1 := set_nth i r' recs).
    assert (Hstep : forall m1, ents m1 recs1 = ents m recs ->
      exists recs' m' last', compact_loop kd data n order recs1 m1 (last - os r) = Ok (recs', m', last') /\
        last' + wsum L ((off, i) :: order) = last /\ length recs' = n /\
        (forall r, In r recs' -> last' <= r_off r /\ r_off r + os r <= data) /\
        pairs recs' /\ ents m' recs' = ents m recs).
    { intros m1 Hm1. destruct (IH recs1 m1 (last - os r)) as [recs' [m' [last' [E [H1 [H2 [H3 [H4 H5]]]]]]]].
      - unfold recs1. now rewrite set_nth_length.
      - unfold recs1. rewrite map_set_nth, Hos', set_nth_id; [assumption|]. now rewrite nth_error_map, Hr.
      - lia.
      - assumption.
      - assumption.
      - intros off' j Hj. destruct (Hbelow off' j Hj) as [a [Ha [Hao Hae]]]. exists a.
        unfold recs1. rewrite set_nth_other; [auto|]. intros <-. apply Hni. apply in_map_iff. now exists (off', i).
      - intros j a Ha Hj. unfold recs1 in Ha. destruct (Nat.eq_dec i j) as [<-|Hij].
        + rewrite set_nth_same in Ha by assumption. injection Ha as <-. rewrite Hos', Hoff'. lia.
        + rewrite set_nth_other in Ha by assumption. destruct (Hdone j a Ha) as [H6 H7]; [|lia].
          cbn [map snd]. intros [H|H]; auto.
      - intros j k a b Ha Hb Hjk. unfold recs1 in Ha, Hb.
        assert (Hone : forall j a, j <> i -> nth_error recs j = Some a -> apart a r').
        { clear j k a b Ha Hb Hjk. intros j a Hj Ha. unfold apart. rewrite Hos', Hoff'.
          destruct (in_dec Nat.eq_dec j (map snd order)) as [Hin|Hin].
          - apply in_map_iff in Hin. destruct Hin as [[o' j'] [<- Hin]]. cbn [snd] in Ha.
            destruct (Hbelow _ _ Hin) as [a' [Ha' [Hao Hae]]]. assert (a' = a) by congruence. subst a'. left. lia.
          - destruct (Hdone j a Ha) as [H6 H7]; [|right; lia].
            cbn [map snd]. intros [H|H]; auto. }
        destruct (Nat.eq_dec i j) as [<-|Hij]; [|destruct (Nat.eq_dec i k) as [<-|Hik]].
        + rewrite set_nth_same in Ha by assumption. injection Ha as <-.
          rewrite set_nth_other in Hb by assumption. destruct (Hone k b (not_eq_sym Hjk) Hb) as [H|H]; [right|left]; exact H.
        + rewrite set_nth_same in Hb by assumption. injection Hb as <-.
          rewrite set_nth_other in Ha by assumption. exact (Hone j a Hjk Ha).
        + rewrite set_nth_other in Ha by assumption. rewrite set_nth_other in Hb by assumption.
          exact (HP j k a b Ha Hb Hjk).
      - lia.
      - exists recs', m', last'. split; [exact E|]. split.
        { cbn [wsum fold_right snd]. fold (wsum L order). lia. }
        split; [assumption|]. split; [assumption|]. split; [assumption|]. congruence. }
    destruct (N.ltb_spec 0 (last - (off + os r))) as [Hsp|Hsp].
    + replace (r_off r + (last - (off + os r))) with (last - os r) by lia.
      replace (_ && _) with true by lia. rewrite w14_small by lia. fold r'. rewrite Hoff'. fold recs1.
      apply Hstep. apply nth_error_ext. intros j. rewrite !ents_nth. unfold recs1.
      destruct (Nat.eq_dec i j) as [<-|Hij].
      * rewrite set_nth_same, Hr by assumption. cbn [option_map]. rewrite Hks', Hvs', Hoff'.
        unfold osize. rewrite read_app. f_equal.
        pose proof (read_write_fst m (last - (ksize kd r + vsize kd r))
          (read m (r_off r) (ksize kd r)) (read m (r_off r + ksize kd r) (vsize kd r))) as H1.
        pose proof (read_write_snd m (last - (ksize kd r + vsize kd r))
          (read m (r_off r) (ksize kd r)) (read m (r_off r + ksize kd r) (vsize kd r))) as H2.
        rewrite read_length in H1. rewrite (read_length m (r_off r)) in H2. rewrite read_length in H2.
        now rewrite H1, H2.
      * rewrite set_nth_other by assumption. destruct (nth_error recs j) as [a|] eqn:Ha; [|reflexivity].
        cbn [option_map]. f_equal.
        assert (Hout : r_off a + os a <= last - os r \/ last <= r_off a).
        { destruct (in_dec Nat.eq_dec j (map snd order)) as [Hin|Hin].
          - apply in_map_iff in Hin. destruct Hin as [[o' j'] [<- Hin]]. cbn [snd] in Ha.
            destruct (Hbelow _ _ Hin) as [a' [Ha' [Hao Hae]]]. assert (a' = a) by congruence. subst a'. left. lia.
          - destruct (Hdone j a Ha) as [H6 H7]; [|right; lia]. cbn [map snd]. intros [H|H]; auto. }
        assert (Hra : os a = ksize kd a + vsize kd a) by reflexivity.
        f_equal; apply read_write_out; rewrite read_length; lia.
    + assert (Hrr : r' = r). { unfold r'. replace (last - os r) with (r_off r) by lia. now destruct r. }
      assert (Hr1 : recs1 = recs) by (unfold recs1; rewrite Hrr; now apply set_nth_id).
      specialize (Hstep m). rewrite Hr1 in Hstep. assert (Ho : last - os r = off) by lia. rewrite Ho in Hstep.
      apply Hstep. reflexivity.
Qed.

Lemma In_places : forall A (g : A -> N) l s o i, In (o, i) (combine (map g l) (seq s (length l))) ->
  (s <= i)%nat /\ exists r, nth_error l (i - s) = Some r /\ g r = o.
Proof.
  intros A g. induction l as [|x l IH]; intros s o i H; cbn in H; [contradiction|].
  destruct H as [H|H].
  - injection H as <- <-. split; [lia|]. exists x. now rewrite Nat.sub_diag.
  - destruct (IH _ _ _ H) as [H1 [r [H2 H3]]]. split; [lia|]. exists r. split; [|assumption].
    replace (i - s)%nat with (S (i - S s)) by lia. exact H2.
Qed.

Lemma snd_places : forall A B (l : list A) (l' : list B), length l = length l' -> map snd (combine l l') = l'.
Proof. intros A B. induction l; intros [|y l'] H; cbn in *; try discriminate; auto. f_equal. auto. Qed.

Lemma wsum_perm : forall L a b, Permutation a b -> wsum L a = wsum L b.
Proof. intros L a b H. unfold wsum. induction H; cbn; lia. Qed.

Lemma wsum_all : forall (g : rec -> N) l pre,
  wsum (pre ++ map os l) (combine (map g l) (seq (length pre) (length l))) = osum l.
Proof.
  intros g. induction l as [|r l IH]; intros pre; [reflexivity|]. cbn [map length seq combine wsum fold_right snd osum].
  rewrite app_nth2, Nat.sub_diag by lia. cbn [nth]. f_equal.
  specialize (IH (pre ++ [os r])). rewrite <- app_assoc, app_length in IH. cbn [app length] in IH.
  replace (length pre + 1)%nat with (S (length pre)) in IH by lia. exact IH.
Qed.

Lemma apart_sym : forall a b, apart a b -> apart b a.
Proof. unfold apart. tauto. Qed.

Lemma pairs_cons : forall x l, pairs (x :: l) <-> (forall y, In y l -> apart x y) /\ pairs l.
Proof.
  intros x l. split.
  - intros H. split.
    + intros y Hy. apply In_nth_error in Hy. destruct Hy as [j Hj].
      exact (H 0%nat (S j) x y eq_refl Hj (Nat.neq_0_succ j)).
    + intros i j a b Ha Hb Hij. apply (H (S i) (S j) a b Ha Hb). lia.
  - intros [H1 H2] [|i] [|j] a b Ha Hb Hij; cbn in Ha, Hb.
    + lia.
    + injection Ha as <-. apply H1. eapply nth_error_In; eauto.
    + injection Hb as <-. apply apart_sym, H1. eapply nth_error_In; eauto.
    + apply (H2 i j a b Ha Hb). lia.
Qed.

Lemma pairs_perm : forall l l', Permutation l l' -> pairs l -> pairs l'.
Proof.
  intros l l' H. induction H as [|x l l' H IH|x y l|l l' l'' H IH H' IH']; intros HP; auto.
  - apply pairs_cons in HP. apply pairs_cons. split; [|tauto]. intros y Hy. apply HP.
    eapply Permutation_in; [symmetry; exact H|assumption].
  - apply pairs_cons in HP. destruct HP as [H1 H2]. apply pairs_cons in H2. destruct H2 as [H2 H3].
    apply pairs_cons. split; [|apply pairs_cons; split; [|assumption]].
    + intros z [<-|Hz]; [apply apart_sym, H1; now left|now apply H2].
    + intros z Hz. apply H1. now right.
Qed.

Lemma pairs_app_r : forall a b, pairs (a ++ b) -> pairs b.
Proof. induction a as [|x a IH]; intros b H; [assumption|]. apply pairs_cons in H. now apply IH. Qed.

Lemma pairs_drop : forall a m b, pairs (a ++ m ++ b) -> pairs (a ++ b).
Proof.
  intros a m b H. apply (pairs_app_r m). eapply pairs_perm; [|exact H].
  rewrite !app_assoc. apply Permutation_app_tail. apply Permutation_app_comm.
Qed.

Lemma pairs_insert : forall a x b, pairs (a ++ b) -> (forall y, In y (a ++ b) -> apart x y) ->
  pairs (a ++ x :: b).
Proof.
  intros a x b H1 H2. eapply pairs_perm; [apply Permutation_middle|]. apply pairs_cons. auto.
Qed.

Section Sort.
Context (srt : list (N * nat) -> list (N * nat)) (Hsrt : sorts srt).

Lemma ents_length : forall m l, length (ents m l) = length l.
Proof. intros. apply map_length. Qed.

(** What an operation leaves alone. *)
Definition same (nd nd' : node) : Prop := n_leaf nd' = n_leaf nd /\ n_edge nd' = n_edge nd.

Lemma compact_ok : forall data nd, inv data nd ->
  exists nd', compact kd srt nd = Ok nd' /\ inv data nd' /\ same nd nd' /\
    entries kd nd' = entries kd nd /\ n_avail nd' = n_avail nd /\ count nd' = count nd /\
    n_tail nd' = hdr + N.of_nat (count nd) * rs + n_avail nd.
Proof.
  intros data nd HI. destruct HI as [I1 I2 I3 I4 I5 I6 I7].
  rewrite entries_ents, used_ents in I5. unfold compact.
  destruct (n_recs nd) as [|r0 rr] eqn:E.
  - eexists. split; [reflexivity|]. rewrite !entries_ents. unfold count in *. cbn [n_mem n_recs] in *.
    rewrite E in *. cbn [osum length fold_right] in I5.
    split; [|split; [split; reflexivity|]].
    + constructor; cbn; try assumption; try lia; try contradiction.
    + split; [reflexivity|]. split; [reflexivity|]. split; [reflexivity|]. cbn [n_tail length]. lia.
  - rewrite <- E in *. clear E r0 rr. set (recs := n_recs nd) in *.
    set (order := srt (combine (map r_off recs) (seq 0 (length recs)))).
    destruct (Hsrt (combine (map r_off recs) (seq 0 (length recs)))) as [Hp Hd]. fold order in Hp, Hd.
    assert (Hsnd : Permutation (map snd order) (seq 0 (length recs))).
    { rewrite <- (snd_places N nat (map r_off recs) (seq 0 (length recs))).
      - now apply Permutation_map.
      - now rewrite map_length, seq_length. }
    assert (Hw : wsum (map os recs) order = osum recs).
    { rewrite (wsum_perm _ _ _ Hp). exact (wsum_all r_off recs []). }
    destruct (compact_loop_ok data (length recs) (map os recs) I3 order recs (n_mem nd) data)
      as [recs' [m' [last' [HE [H1 [H2 [H3 [H4 H5]]]]]]]].
    + reflexivity.
    + reflexivity.
    + lia.
    + eapply Permutation_NoDup; [symmetry; exact Hsnd|apply seq_NoDup].
    + exact Hd.
    + intros off i Hi. apply (Permutation_in _ Hp) in Hi. apply In_places in Hi.
      destruct Hi as [_ [r [Hr Ho]]]. rewrite Nat.sub_0_r in Hr. exists r. split; [assumption|].
      split; [assumption|]. apply nth_error_In in Hr. specialize (I6 r Hr). lia.
    + intros i r Hr Hni. exfalso. apply Hni. eapply Permutation_in; [symmetry; exact Hsnd|].
      apply in_seq. assert (i < length recs)%nat by (apply nth_error_Some; congruence). lia.
    + exact I7.
    + rewrite Hw. lia.
    + rewrite I1, I2, HE. cbn [bind]. eexists. split; [reflexivity|].
      rewrite Hw in H1. unfold count. cbn [n_recs n_tail n_avail].
      rewrite !entries_ents. cbn [n_mem n_recs].
      split; [|split; [split; reflexivity|]].
      * constructor; unfold count; cbn [n_data n_init n_tail n_avail n_recs n_mem]; try assumption; try reflexivity.
        -- rewrite H2. unfold count in I4. fold recs in I4. lia.
        -- rewrite entries_ents. cbn [n_mem n_recs]. rewrite H5, used_ents. lia.
      * split; [assumption|]. split; [reflexivity|]. split; [assumption|]. fold recs. lia.
Qed.

(** ** Insert *)

Lemma blen_app : forall a b, blen (a ++ b) = blen a + blen b.
Proof. intros. unfold blen. rewrite app_length. lia. Qed.

Lemma mk_rec_sizes : forall o k v, shape kd k v -> o < 16384 -> blen k + blen v < 16384 ->
  r_off (mk_rec o (blen k) (blen v)) = o /\
  ksize kd (mk_rec o (blen k) (blen v)) = blen k /\ vsize kd (mk_rec o (blen k) (blen v)) = blen v.
Proof.
  intros o k v Hs Ho Hk. unfold mk_rec, ksize, vsize. cbn [r_off r_klen r_vlen].
  rewrite !w14_small by lia. unfold shape in Hs. destruct kd; subst; auto.
Qed.

Lemma insert_core : forall data nd i k v, inv data nd -> shape kd k v -> (i <= count nd)%nat ->
  blen k + blen v + rs <= n_avail nd ->
  hdr + N.of_nat (S (count nd)) * rs + (blen k + blen v) <= n_tail nd ->
  let nd' := Node (n_data nd) (n_leaf nd) (n_init nd) (n_tail nd - (blen k + blen v))
               (n_avail nd - (blen k + blen v + rs))
               (firstn i (n_recs nd) ++ mk_rec (n_tail nd - (blen k + blen v)) (blen k) (blen v) ::
                skipn i (n_recs nd)) (n_edge nd)
               (write (n_mem nd) (n_tail nd - (blen k + blen v)) (k ++ v)) in
  inv data nd' /\ entries kd nd' = firstn i (entries kd nd) ++ (k, v) :: skipn i (entries kd nd).
Proof.
  intros data nd i k v HI Hs Hi Hroom Htail nd'. destruct HI as [I1 I2 I3 I4 I5 I6 I7].
  destruct (mk_rec_sizes (n_tail nd - (blen k + blen v)) k v Hs) as [R1 [R2 R3]]; [lia|lia|].
  set (r := mk_rec (n_tail nd - (blen k + blen v)) (blen k) (blen v)) in *.
  assert (Ros : os r = blen k + blen v) by (unfold osize; lia).
  set (off := n_tail nd - (blen k + blen v)) in *.
  assert (Hmem : forall l, (forall r, In r l -> In r (n_recs nd)) ->
    ents (write (n_mem nd) off (k ++ v)) l = ents (n_mem nd) l).
  { intros l Hl. apply ents_write_out. intros x Hx. right. specialize (I6 x (Hl x Hx)).
    rewrite blen_app. unfold off. lia. }
  assert (HE : entries kd nd' = firstn i (entries kd nd) ++ (k, v) :: skipn i (entries kd nd)).
  { rewrite !entries_ents. unfold nd'. cbn [n_mem n_recs]. unfold ents at 1. rewrite map_app. cbn [map].
    fold (ents (write (n_mem nd) off (k ++ v)) (firstn i (n_recs nd))).
    fold (ents (write (n_mem nd) off (k ++ v)) (skipn i (n_recs nd))).
    rewrite !Hmem; [|intros x Hx; rewrite <- (firstn_skipn i (n_recs nd)); apply in_or_app; auto..].
    rewrite R1, R2, R3. rewrite read_write_fst, read_write_snd. unfold ents.
    now rewrite firstn_map, skipn_map. }
  split; [|exact HE].
  assert (Hcnt : count nd' = S (count nd)).
  { unfold count, nd'. cbn [n_recs]. rewrite app_length. cbn [length].
    rewrite firstn_length, skipn_length. unfold count in Hi. lia. }
  constructor.
  - exact I1.
  - exact I2.
  - exact I3.
  - rewrite Hcnt. unfold nd'. cbn [n_tail]. unfold off. lia.
  - rewrite HE, used_app. cbn [used fold_right]. fold (used kd (skipn i (entries kd nd))).
    rewrite <- (firstn_skipn i (entries kd nd)), used_app in I5.
    unfold esize. cbn [fst snd]. unfold nd'. cbn [n_avail]. lia.
  - intros x Hx. unfold nd' in *. cbn [n_recs n_tail] in *. apply in_app_or in Hx.
    assert (Hx' : In x (n_recs nd) \/ x = r).
    { rewrite <- (firstn_skipn i (n_recs nd)). destruct Hx as [Hx|[Hx|Hx]]; auto using in_or_app. }
    destruct Hx' as [Hx'| ->].
    + specialize (I6 x Hx'). unfold off. lia.
    + rewrite R1, Ros. unfold off. lia.
  - unfold nd'. cbn [n_recs]. apply pairs_insert; rewrite firstn_skipn; [assumption|].
    intros y Hy. specialize (I6 y Hy). left. rewrite R1, Ros. unfold off. lia.
Qed.

Lemma insert_ok : forall data nd i k v, inv data nd -> shape kd k v -> (i <= count nd)%nat ->
  blen k + blen v + rs <= n_avail nd ->
  exists nd', insert kd srt nd i k v = Ok nd' /\ inv data nd' /\ same nd nd' /\
    entries kd nd' = firstn i (entries kd nd) ++ (k, v) :: skipn i (entries kd nd).
Proof.
  intros data nd i k v HI Hs Hi Hroom. unfold insert.
  replace (count nd <? i)%nat with false by lia.
  pose proof HI as [I1 I2 I3 I4 I5 I6 I7]. pose proof rs_small as Hrs.
  rewrite (w16_small (blen k + blen v)) by lia. rewrite w16_small by lia.
  replace (n_avail nd <? _) with false by lia.
  assert (Hgo : forall nd1, inv data nd1 -> same nd nd1 -> entries kd nd1 = entries kd nd ->
    n_avail nd1 = n_avail nd -> count nd1 = count nd ->
    hdr + N.of_nat (S (count nd)) * rs + (blen k + blen v) <= n_tail nd1 ->
    exists nd', (let tail := sub16 (n_tail nd1) (blen k + blen v) in
          if (hdr + N.of_nat (S (count nd1)) * rs <=? tail) &&
             (tail + (blen k + blen v) <=? n_data nd1) then
            Ok (Node (n_data nd1) (n_leaf nd1) (n_init nd1) tail (sub16 (n_avail nd1) (blen k + blen v + rs))
                  (firstn i (n_recs nd1) ++ mk_rec tail (blen k) (blen v) ::
                   skipn i (n_recs nd1))
                  (n_edge nd1) (write (n_mem nd1) tail (k ++ v)))
          else Stop Clobber) = Ok nd' /\ inv data nd' /\ same nd nd' /\
    entries kd nd' = firstn i (entries kd nd) ++ (k, v) :: skipn i (entries kd nd)).
  { intros nd1 HI1 [S1 S2] HE HA HC HT. pose proof HI1 as [J1 J2 J3 J4 J5 J6 J7].
    cbv zeta. rewrite sub16_small by lia. rewrite sub16_small by lia.
    replace (_ && _) with true by lia. eexists. split; [reflexivity|].
    destruct (insert_core data nd1 i k v HI1 Hs) as [H1 H2]; [lia|lia|lia|].
    split; [exact H1|]. split; [split; cbn; assumption|]. rewrite H2, HE. reflexivity. }
  assert (Haf : arena_free kd nd = n_tail nd - hdr - N.of_nat (count nd) * rs).
  { unfold arena_free. rewrite (sub16_small (n_tail nd)) by lia. apply sub16_small; lia. }
  rewrite Haf. destruct (N.ltb_spec (n_tail nd - hdr - N.of_nat (count nd) * rs) (blen k + blen v + rs)).
  - destruct (compact_ok data nd HI) as [nd1 [E [C1 [C2 [C3 [C4 [C5 C6]]]]]]]. rewrite E. cbn [bind].
    apply Hgo; auto. lia.
  - cbn [bind]. apply Hgo; auto; [split; reflexivity|lia].
Qed.

(** ** Remove *)

Lemma give_back_ok : forall m l a, a + used kd (ents m l) < 65536 ->
  give_back kd a l = a + used kd (ents m l).
Proof.
  intros m. unfold give_back. induction l as [|r l IH]; intros a H; [cbn; lia|].
  rewrite esize_ents in H |- *. cbn [fold_left]. fold (os r). rewrite w16_small by (unfold osize in *; lia).
  rewrite IH by (unfold osize in *; lia). unfold osize. lia.
Qed.

Lemma parts : forall A (l : list A) s e, (s <= e)%nat ->
  l = firstn s l ++ firstn (e - s) (skipn s l) ++ skipn e l.
Proof.
  intros A l s e H. rewrite <- (firstn_skipn s l) at 1. f_equal.
  rewrite <- (firstn_skipn (e - s) (skipn s l)) at 1. f_equal.
  replace e with (s + (e - s))%nat at 2 by lia. clear H. generalize (e - s)%nat. revert l.
  induction s as [|s IH]; intros l n; [reflexivity|]. destruct l as [|x l]; [now rewrite !skipn_nil|].
  cbn. apply IH.
Qed.

Lemma drop_ok : forall data nd s e ed, inv data nd -> (s <= e <= count nd)%nat ->
  let nd' := with_recs nd (give_back kd (n_avail nd) (firstn (e - s) (skipn s (n_recs nd))))
               (firstn s (n_recs nd) ++ skipn e (n_recs nd)) ed in
  inv data nd' /\ entries kd nd' = firstn s (entries kd nd) ++ skipn e (entries kd nd).
Proof.
  intros data nd s e ed HI Hse nd'. destruct HI as [I1 I2 I3 I4 I5 I6 I7].
  pose proof (parts rec (n_recs nd) s e (proj1 Hse)) as HP.
  assert (HE : entries kd nd' = firstn s (entries kd nd) ++ skipn e (entries kd nd)).
  { rewrite !entries_ents. unfold nd', with_recs. cbn [n_mem n_recs]. unfold ents.
    now rewrite map_app, firstn_map, skipn_map. }
  assert (HU : used kd (entries kd nd) = used kd (entries kd nd') +
               used kd (ents (n_mem nd) (firstn (e - s) (skipn s (n_recs nd))))).
  { rewrite entries_ents. rewrite HP at 1. unfold ents at 1. rewrite !map_app. rewrite HE, entries_ents.
    unfold ents. rewrite !used_app. rewrite ?firstn_map, ?skipn_map. lia. }
  assert (HIn : forall r, In r (n_recs nd') -> In r (n_recs nd)).
  { intros r Hr. unfold nd', with_recs in Hr. cbn [n_recs] in Hr. rewrite HP.
    apply in_app_or in Hr. destruct Hr; auto using in_or_app. }
  split; [|exact HE].
  assert (HG : n_avail nd' = n_avail nd + used kd (ents (n_mem nd) (firstn (e - s) (skipn s (n_recs nd))))).
  { unfold nd', with_recs. cbn [n_avail]. apply give_back_ok. lia. }
  constructor; try assumption.
  - unfold count in *. unfold nd', with_recs. cbn [n_recs n_tail].
    rewrite app_length, firstn_length, skipn_length. pose proof rs_small.
    split; [|apply I4]. destruct I4 as [I4 _]. etransitivity; [|exact I4]. nia.
  - rewrite HG. lia.
  - intros r Hr. apply I6. auto.
  - unfold nd', with_recs. cbn [n_recs]. rewrite HP in I7. now apply pairs_drop in I7.
Qed.

Lemma remove_ok : forall data nd s e, inv data nd -> (s <= S e)%nat -> (e < count nd)%nat ->
  exists nd', remove kd nd s e = Ok nd' /\ inv data nd' /\ same nd nd' /\
    entries kd nd' = firstn s (entries kd nd) ++ skipn (S e) (entries kd nd).
Proof.
  intros data nd s e HI Hs He. unfold remove.
  replace (_ || _ || _) with false by (symmetry; rewrite !orb_false_iff, !Nat.ltb_ge; lia).
  replace (e =? count nd)%nat with false by lia. eexists. split; [reflexivity|].
  destruct (drop_ok data nd s (S e) (n_edge nd) HI) as [H1 H2]; [lia|].
  split; [exact H1|]. split; [split; reflexivity|exact H2].
Qed.

Lemma remove_to_edge_ok : forall data nd s, inv data nd -> n_leaf nd = false -> n_edge nd <> None ->
  (1 <= s <= count nd)%nat ->
  exists nd', remove kd nd s (count nd) = Ok nd' /\ inv data nd' /\ n_leaf nd' = n_leaf nd /\
    n_edge nd' = Some (snd (nth (s - 1) (entries kd nd) ([], []))) /\
    entries kd nd' = firstn (s - 1) (entries kd nd).
Proof.
  intros data nd s HI Hl He Hs. unfold remove.
  replace (_ || _ || _) with false by (symmetry; rewrite !orb_false_iff, !Nat.ltb_ge; lia).
  rewrite Nat.eqb_refl, Hl. destruct (n_edge nd) as [ed|]; [|congruence].
  destruct s as [|s']; [lia|]. cbn [Nat.sub]. rewrite Nat.sub_0_r.
  destruct (nth_error (n_recs nd) s') as [r|] eqn:E.
  - eexists. split; [reflexivity|].
    destruct (drop_ok data nd s' (count nd) (Some (val_at kd nd r)) HI) as [H1 H2]; [lia|].
    unfold count in H1, H2. rewrite skipn_all, app_nil_r in H1.
    assert (HF : firstn (length (n_recs nd) - s') (skipn s' (n_recs nd)) = skipn s' (n_recs nd)).
    { apply firstn_all2. rewrite skipn_length. lia. }
    rewrite HF in H1. split; [exact H1|]. split; [exact Hl|]. split.
    + cbn [n_edge with_recs]. f_equal.
      assert (HN : nth_error (entries kd nd) s' = Some (key_at kd nd r, val_at kd nd r))
        by (unfold entries; now rewrite nth_error_map, E).
      now rewrite (nth_error_nth _ _ _ HN).
    + rewrite !entries_ents. unfold with_recs, ents. cbn [n_recs n_mem]. now rewrite firstn_map.
  - apply nth_error_None in E. unfold count in Hs. lia.
Qed.

(** ** Update *)

Lemma entries_length : forall nd, length (entries kd nd) = count nd.
Proof. intros. apply map_length. Qed.

Lemma nth_skipn : forall A (l : list A) i x, nth_error l i = Some x -> skipn i l = x :: skipn (S i) l.
Proof. intros A l i x. revert l. induction i; intros [|y l] H; cbn in *; try discriminate; [congruence|auto]. Qed.

Lemma used_split : forall l i d, (i < length l)%nat ->
  used kd l = used kd (firstn i l) + esize kd (nth i l d) + used kd (skipn (S i) l).
Proof.
  intros l i d Hi. rewrite <- (firstn_skipn i l) at 1. rewrite used_app.
  rewrite (nth_skipn _ l i (nth i l d)); [|now apply nth_error_nth'].
  cbn [used fold_right]. fold (used kd (skipn (S i) l)). lia.
Qed.

Lemma update_ok : forall data nd i k v, inv data nd -> shape kd k v -> (i < count nd)%nat ->
  used kd (entries kd nd) + esize kd (k, v) <= data - hdr + esize kd (nth i (entries kd nd) ([], [])) ->
  exists nd', update kd srt nd i k v = Ok nd' /\ inv data nd' /\ same nd nd' /\
    entries kd nd' = firstn i (entries kd nd) ++ (k, v) :: skipn (S i) (entries kd nd).
Proof.
  intros data nd i k v HI Hs Hi Hroom. unfold update.
  replace (i =? count nd)%nat with false by lia.
  destruct (nth_error (n_recs nd) i) as [r|] eqn:Hr; [|apply nth_error_None in Hr; unfold count in Hi; lia].
  pose proof HI as [I1 I2 I3 I4 I5 I6 I7]. pose proof (nth_error_In _ _ Hr) as HIn.
  pose proof (I6 r HIn) as [P1 P2].
  assert (HN : nth i (entries kd nd) ([], []) = (key_at kd nd r, val_at kd nd r)).
  { apply nth_error_nth. unfold entries. now rewrite nth_error_map, Hr. }
  assert (HS : esize kd (nth i (entries kd nd) ([], [])) = os r + rs).
  { rewrite HN. unfold esize, key_at, val_at. cbn [fst snd]. rewrite !read_length. reflexivity. }
  rewrite HS in Hroom. unfold esize in Hroom. cbn [fst snd] in Hroom.
  assert (HU : used kd (entries kd nd) = used kd (firstn i (entries kd nd)) + (os r + rs) +
    used kd (skipn (S i) (entries kd nd))).
  { rewrite <- HS. apply used_split. now rewrite entries_length. } rewrite (w16_small (blen k + blen v)) by lia. rewrite (w16_small (os r)) by lia.
  destruct (N.leb_spec (blen k + blen v) (os r)) as [Hle|Hgt].
  - replace (_ && _) with true by (pose proof rs_small; lia).
    set (r' := Rec (r_off r) (w14 (blen k)) (w14 (blen v))).
    assert (HR : r' = mk_rec (r_off r) (blen k) (blen v)).
    { unfold r', mk_rec. now rewrite (w14_small (r_off r)) by lia. }
    destruct (mk_rec_sizes (r_off r) k v Hs) as [R1 [R2 R3]]; [lia|lia|]. rewrite <- HR in R1, R2, R3.
    assert (Ros : os r' = blen k + blen v) by (unfold osize; lia).
    set (m' := write (write (n_mem nd) (r_off r) k) (r_off r + blen k) v).
    assert (Hoth : forall j a, j <> i -> nth_error (n_recs nd) j = Some a ->
      r_off a + os a <= r_off r \/ r_off r + (blen k + blen v) <= r_off a).
    { intros j a Hj Ha. destruct (I7 j i a r Ha Hr Hj) as [H|H]; lia. }
    assert (HE : ents m' (set_nth i r' (n_recs nd)) =
      firstn i (entries kd nd) ++ (k, v) :: skipn (S i) (entries kd nd)).
    { rewrite <- set_nth_split by (rewrite entries_length; lia). apply nth_error_ext. intros j.
      rewrite ents_nth. destruct (Nat.eq_dec i j) as [<-|Hij].
      - rewrite !set_nth_same by (rewrite ?entries_length; unfold count in Hi; lia).
        cbn [option_map]. rewrite R1, R2, R3. unfold m'. rewrite read_write_same.
        rewrite read_write_out by lia. rewrite read_write_same. symmetry. apply set_nth_same.
        rewrite entries_length. exact Hi.
      - rewrite !set_nth_other by assumption. unfold entries. rewrite nth_error_map.
        destruct (nth_error (n_recs nd) j) as [a|] eqn:Ha; [|reflexivity]. cbn [option_map]. f_equal.
        pose proof (Hoth j a (not_eq_sym Hij) Ha) as Ho. unfold osize in Ho. unfold key_at, val_at, m'.
        f_equal; rewrite !read_write_out by lia; reflexivity. }
    eexists. split; [reflexivity|]. rewrite w16_small by lia. split; [|split; [split; reflexivity|exact HE]].
    constructor; cbn [n_data n_init n_tail n_avail n_recs]; try assumption.
    + unfold count in *. cbn [n_recs]. now rewrite set_nth_length.
    + rewrite entries_ents. cbn [n_mem n_recs]. fold m'. rewrite HE, used_app.
      cbn [used fold_right]. fold (used kd (skipn (S i) (entries kd nd))). unfold esize. cbn [fst snd]. lia.
    + intros x Hx. apply In_nth_error in Hx. destruct Hx as [j Hj].
      destruct (Nat.eq_dec i j) as [<-|Hij].
      * rewrite set_nth_same in Hj by (unfold count in Hi; lia). injection Hj as <-. rewrite R1, Ros. lia.
      * rewrite set_nth_other in Hj by assumption. apply I6. eapply nth_error_In; eauto.
    + intros j l a b Ha Hb Hjl.
      assert (Hone : forall j a, j <> i -> nth_error (n_recs nd) j = Some a -> apart a r').
      { intros j' a' Hj' Ha'. unfold apart. rewrite R1, Ros. exact (Hoth j' a' Hj' Ha'). }
      destruct (Nat.eq_dec i j) as [<-|Hij]; [|destruct (Nat.eq_dec i l) as [<-|Hil]].
      * rewrite set_nth_same in Ha by (unfold count in Hi; lia). injection Ha as <-.
        rewrite set_nth_other in Hb by assumption. apply apart_sym. apply (Hone l); auto.
      * rewrite set_nth_same in Hb by (unfold count in Hi; lia). injection Hb as <-.
        rewrite set_nth_other in Ha by assumption. apply (Hone j); auto.
      * rewrite set_nth_other in Ha by assumption. rewrite set_nth_other in Hb by assumption.
        exact (I7 j l a b Ha Hb Hjl).
  - destruct (remove_ok data nd i i HI) as [nd1 [E1 [R1 [[R2 R2'] R3]]]]; [lia|assumption|].
    rewrite E1. cbn [bind].
    assert (Hl : length (firstn i (entries kd nd)) = i) by (rewrite firstn_length, entries_length; lia).
    assert (Hc1 : count nd1 = (count nd - 1)%nat).
    { rewrite <- entries_length, R3, app_length, Hl, skipn_length, entries_length. lia. }
    pose proof (i_avail _ _ R1) as A1. rewrite R3, used_app in A1.
    destruct (insert_ok data nd1 i k v R1 Hs) as [nd2 [E2 [T1 [[T2 T2'] T3]]]]; [lia|lia|].
    exists nd2. split; [assumption|]. split; [assumption|]. split; [split; congruence|].
    rewrite T3, R3, firstn_app, skipn_app, Hl, Nat.sub_diag. cbn [firstn skipn].
    rewrite app_nil_r, firstn_all2 by lia. rewrite skipn_all2 by lia. reflexivity.
Qed.

(** ** From node to node *)

Definition ent_of (nd : node) (r : rec) : ent := (key_at kd nd r, val_at kd nd r).

Lemma shape_of : forall nd r, shape kd (key_at kd nd r) (val_at kd nd r).
Proof.
  intros nd r. unfold shape, key_at, val_at. destruct kd; rewrite ?read_length; reflexivity || exact I.
Qed.
Lemma esize_of : forall nd r, esize kd (ent_of nd r) = ksize kd r + vsize kd r + rs.
Proof. intros. unfold esize, ent_of, key_at, val_at. cbn [fst snd]. now rewrite !read_length. Qed.

Lemma insert_of : forall data nd other i r, inv data other -> (i <= count other)%nat ->
  used kd (entries kd other) + esize kd (ent_of nd r) <= data - hdr ->
  exists o', insert kd srt other i (key_at kd nd r) (val_at kd nd r) = Ok o' /\ inv data o' /\
    same other o' /\
    entries kd o' = firstn i (entries kd other) ++ ent_of nd r :: skipn i (entries kd other).
Proof.
  intros data nd other i r HI Hi HR. apply insert_ok; auto using shape_of.
  pose proof (i_avail _ _ HI). unfold esize, ent_of in HR. cbn [fst snd] in HR. lia.
Qed.

Lemma firstn_S_snoc : forall A (l : list A) n x, nth_error l n = Some x ->
  firstn (S n) l = firstn n l ++ [x].
Proof.
  intros A l n x. revert l. induction n; intros [|y l] H; cbn in *; try discriminate.
  - congruence.
  - f_equal. now apply IHn.
Qed.

Lemma skipn_snoc : forall A (l : list A) n x, (n <= length l)%nat -> skipn n (l ++ [x]) = skipn n l ++ [x].
Proof.
  intros A l n x H. rewrite skipn_app. replace (n - length l)%nat with 0%nat by lia. reflexivity.
Qed.

Lemma same_trans : forall a b c, same a b -> same b c -> same a c.
Proof. unfold same. intros a b c [H1 H2] [H3 H4]. split; congruence. Qed.
Lemma same_refl : forall a, same a a.
Proof. split; reflexivity. Qed.

Lemma move_size_loop_ok : forall data nd ind other size k, inv data other -> (ind < count nd)%nat ->
  let l := firstn (S ind) (entries kd nd) in
  let m := Nat.min (prefix_in kd (rev l) size) ind in
  used kd (skipn (S ind - m) l ++ entries kd other) <= data - hdr ->
  exists o', move_size_loop kd srt nd other ind size k = Ok ((ind - m)%nat, o', (k + m)%nat) /\
    inv data o' /\ same other o' /\ entries kd o' = skipn (S ind - m) l ++ entries kd other.
Proof.
  intros data nd. induction ind as [|ind IH]; intros other size k HI Hind l m HR.
  - cbn [move_size_loop]. exists other. assert (Hm : m = 0%nat) by (unfold m; lia). rewrite Hm.
    split; [now rewrite Nat.add_0_r|]. split; [assumption|]. split; [apply same_refl|].
    rewrite skipn_all2; [reflexivity|]. unfold l. rewrite firstn_length. lia.
  - cbn [move_size_loop].
    destruct (nth_error (n_recs nd) (S ind)) as [r|] eqn:Hr;
      [|apply nth_error_None in Hr; unfold count in Hind; lia].
    assert (HE : nth_error (entries kd nd) (S ind) = Some (ent_of nd r))
      by (unfold entries; now rewrite nth_error_map, Hr).
    assert (Hl : l = firstn (S ind) (entries kd nd) ++ [ent_of nd r]) by (apply firstn_S_snoc; exact HE).
    assert (Hlen : length (firstn (S ind) (entries kd nd)) = S ind)
      by (rewrite firstn_length, entries_length; lia).
    assert (Hrev : rev l = ent_of nd r :: rev (firstn (S ind) (entries kd nd)))
      by (rewrite Hl, rev_app_distr; reflexivity).
    rewrite <- esize_of with (nd := nd).
    unfold m in *. rewrite Hrev in *. cbn [prefix_in] in *.
    destruct (N.ltb_spec size (esize kd (ent_of nd r))) as [Hs|Hs].
    + exists other. rewrite Nat.min_0_l. split; [now rewrite Nat.sub_0_r, Nat.add_0_r|].
      split; [assumption|]. split; [apply same_refl|].
      rewrite skipn_all2; [reflexivity|]. rewrite Hl, app_length, Hlen. cbn. lia.
    + set (m' := Nat.min (prefix_in kd (rev (firstn (S ind) (entries kd nd))) (size - esize kd (ent_of nd r))) ind).
      assert (Hmm : Nat.min (S (prefix_in kd (rev (firstn (S ind) (entries kd nd))) (size - esize kd (ent_of nd r)))) (S ind) = S m')
        by (unfold m'; lia).
      rewrite Hmm in *. replace (S (S ind) - S m')%nat with (S ind - m')%nat in * by lia.
      rewrite Hl in HR |- *. rewrite skipn_snoc in HR |- * by (rewrite Hlen; lia).
      rewrite <- app_assoc in HR |- *. cbn [app] in HR |- *.
      assert (HR' := HR). rewrite used_app in HR'. cbn [used fold_right] in HR'.
      fold (used kd (entries kd other)) in HR'.
      destruct (insert_of data nd other 0 r HI) as [o1 [E1 [J1 [J2 J3]]]]; [lia|lia|].
      rewrite E1. cbn [bind]. cbn [firstn skipn app] in J3.
      destruct (IH o1 (size - esize kd (ent_of nd r)) (S k) J1) as [o2 [E2 [K1 [K2 K3]]]]; [lia| |].
      * fold m'. rewrite J3. exact HR.
      * fold m' in E2, K3. exists o2. replace (S ind - S m')%nat with (ind - m')%nat by lia.
        replace (k + S m')%nat with (S k + m')%nat by lia. split; [exact E2|]. split; [assumption|].
        split; [eapply same_trans; eauto|]. rewrite K3, J3. reflexivity.
Qed.

Lemma move_entries_loop_ok : forall data nd todo ind other, inv data other -> (ind < count nd)%nat ->
  (0 < todo <= S ind)%nat ->
  let l := firstn (S ind) (entries kd nd) in
  used kd (skipn (S ind - todo) l ++ entries kd other) <= data - hdr ->
  exists o', move_entries_loop kd srt nd other ind todo =
      Ok (o', if (todo =? S ind)%nat then None else Some (ind - todo)%nat) /\
    inv data o' /\ same other o' /\ entries kd o' = skipn (S ind - todo) l ++ entries kd other.
Proof.
  intros data nd. induction todo as [|todo IH]; intros ind other HI Hind Ht l HR; [lia|].
  cbn [move_entries_loop].
  destruct (nth_error (n_recs nd) ind) as [r|] eqn:Hr;
    [|apply nth_error_None in Hr; unfold count in Hind; lia].
  assert (HE : nth_error (entries kd nd) ind = Some (ent_of nd r))
    by (unfold entries; now rewrite nth_error_map, Hr).
  assert (Hl : l = firstn ind (entries kd nd) ++ [ent_of nd r]) by (apply firstn_S_snoc; exact HE).
  assert (Hlen : length (firstn ind (entries kd nd)) = ind) by (rewrite firstn_length, entries_length; lia).
  rewrite Hl in HR |- *. replace (S ind - S todo)%nat with (ind - todo)%nat in * by lia.
  rewrite skipn_snoc in HR |- * by (rewrite Hlen; lia).
  rewrite <- app_assoc in HR |- *. cbn [app] in HR |- *.
  assert (HR' := HR). rewrite used_app in HR'. cbn [used fold_right] in HR'.
  fold (used kd (entries kd other)) in HR'.
  destruct (insert_of data nd other 0 r HI) as [o1 [E1 [J1 [J2 J3]]]]; [lia|lia|].
  rewrite E1. cbn [bind]. cbn [firstn skipn app] in J3.
  destruct ind as [|ind].
  - exists o1. replace (S todo =? 1)%nat with true by lia. split; [reflexivity|].
    split; [assumption|]. split; [assumption|]. rewrite J3, skipn_nil. reflexivity.
  - destruct todo as [|todo].
    + exists o1. cbn [move_entries_loop]. replace (1 =? S (S ind))%nat with false by lia.
      split; [cbn [Nat.sub]; now rewrite Nat.sub_0_r|]. split; [assumption|]. split; [assumption|].
      rewrite J3, Nat.sub_0_r, skipn_all2 by lia. reflexivity.
    + destruct (IH ind o1 J1) as [o2 [E2 [K1 [K2 K3]]]]; [lia|lia| |].
      * rewrite J3. exact HR.
      * exists o2. split; [exact E2|]. split; [assumption|]. split; [eapply same_trans; eauto|].
        rewrite K3, J3. reflexivity.
Qed.

Lemma with_edge_ok : forall data nd e, inv data nd ->
  inv data (with_recs nd (n_avail nd) (n_recs nd) e) /\
  entries kd (with_recs nd (n_avail nd) (n_recs nd) e) = entries kd nd.
Proof. intros data nd e [I1 I2 I3 I4 I5 I6 I7]. split; [constructor; assumption|reflexivity]. Qed.

Lemma move_edge_ok : forall data nd other, inv data nd -> inv data other ->
  exists a b, move_edge nd other = (a, b) /\ inv data a /\ inv data b /\
    entries kd a = entries kd nd /\ entries kd b = entries kd other /\
    n_leaf a = n_leaf nd /\ n_leaf b = n_leaf other /\ count a = count nd /\
    n_edge a = (if n_leaf nd || (count other =? 0)%nat then n_edge nd else None) /\
    n_edge b = (if n_leaf nd || (count other =? 0)%nat then n_edge other else n_edge nd).
Proof.
  intros data nd other H1 H2. unfold move_edge. destruct (n_leaf nd) eqn:EL; cbn [negb andb orb].
  - exists nd, other. rewrite EL. repeat (split; [auto; fail|]). auto.
  - destruct (count other =? 0)%nat; cbn [negb].
    + exists nd, other. rewrite EL. repeat (split; [auto; fail|]). auto.
    + eexists _, _. split; [reflexivity|].
      destruct (with_edge_ok data nd None H1) as [A1 A2].
      destruct (with_edge_ok data other (n_edge nd) H2) as [B1 B2].
      split; [exact A1|]. split; [exact B1|]. split; [exact A2|]. split; [exact B2|].
      split; [exact EL|]. repeat (split; [reflexivity|]). reflexivity.
Qed.

Definition abs (nd : node) : snode := (entries kd nd, n_edge nd).

Lemma move_by_size_ok : forall data nd other size, inv data nd -> inv data other ->
  n_leaf other = n_leaf nd -> entries kd nd <> [] ->
  let m := size_moved kd (abs nd) size in
  let x := split_off (n_leaf nd) (abs nd) (abs other) m in
  used kd (fst (snd x)) <= data - hdr ->
  exists a b, move_right_by_size kd srt nd other size = Ok (a, b, m) /\ inv data a /\ inv data b /\
    n_leaf a = n_leaf nd /\ n_leaf b = n_leaf nd /\ x = (abs a, abs b).
Proof.
  intros data nd other size HI HO HL HNE m x HR. unfold move_right_by_size.
  assert (Hc : (0 < count nd)%nat).
  { rewrite <- entries_length. destruct (entries kd nd); [congruence|cbn; lia]. }
  destruct (count nd) as [|last] eqn:EC; [lia|].
  assert (Hall : firstn (S last) (entries kd nd) = entries kd nd)
    by (apply firstn_all2; rewrite entries_length; lia).
  assert (Hm : m = Nat.min (prefix_in kd (rev (entries kd nd)) size) last).
  { unfold m, size_moved, abs. cbn [fst]. rewrite entries_length, EC. f_equal. lia. }
  assert (Hx : fst (snd x) = skipn (S last - m) (entries kd nd) ++ entries kd other).
  { unfold x, split_off, abs. cbn [fst snd]. rewrite entries_length, EC.
    destruct (_ || _); reflexivity. }
  destruct (move_size_loop_ok data nd last other size 0 HO) as [o1 [E1 [J1 [[J2 J2'] J3]]]]; [lia| |].
  { rewrite Hall. rewrite <- Hm, <- Hx. exact HR. }
  rewrite Hall, <- Hm in E1, J3. rewrite E1. cbn [bind].
  destruct (remove_ok data nd (S (last - m)) last HI) as [nd1 [E2 [K1 [[K2 K2'] K3]]]]; [lia|lia|].
  rewrite E2. cbn [bind].
  destruct (move_edge_ok data nd1 o1 K1 J1) as [a [b [E3 [A1 [B1 [A2 [B2 [A3 [B3 [A4 [A5 B5]]]]]]]]]]].
  rewrite E3. exists a, b. split; [cbn [Nat.add]; reflexivity|]. split; [assumption|]. split; [assumption|].
  split; [congruence|]. split; [congruence|].
  assert (HF : firstn (S (last - m)) (entries kd nd) ++ skipn (S last) (entries kd nd) =
    firstn (S last - m) (entries kd nd)).
  { rewrite skipn_all2, app_nil_r by (rewrite entries_length; lia). f_equal. lia. }
  unfold x, split_off, abs. cbn [fst snd]. rewrite entries_length, EC.
  rewrite A5, B5, A2, B2, K3, HF, J3, K2, K2', J2'.
  rewrite <- (entries_length o1), J3.
  match goal with |- context [if ?c then _ else _] => destruct c end; reflexivity.
Qed.

Lemma move_by_entries_ok : forall data nd other n, inv data nd -> inv data other ->
  n_leaf other = n_leaf nd ->
  let m := Nat.min n (count nd) in
  let x := split_off (n_leaf nd) (abs nd) (abs other) m in
  used kd (fst (snd x)) <= data - hdr ->
  exists a b ret, move_right_by_entries kd srt nd other n = Ok (a, b, ret) /\ inv data a /\ inv data b /\
    n_leaf a = n_leaf nd /\ n_leaf b = n_leaf nd /\
    (abs a, abs b) = (if (m =? 0)%nat then (abs nd, abs other) else x) /\
    ret = (if (m =? count nd)%nat then m - 1 else m)%nat.
Proof.
  intros data nd other n HI HO HL m x HR. unfold move_right_by_entries. fold m.
  destruct (Nat.eqb_spec m 0) as [Hm|Hm].
  - exists nd, other, 0%nat. split; [reflexivity|]. repeat (split; [auto; fail|]). rewrite Hm.
    now destruct (0 =? count nd)%nat.
  - destruct (count nd) as [|last] eqn:EC; [lia|]. cbn [Nat.sub]. rewrite Nat.sub_0_r.
    assert (Hall : firstn (S last) (entries kd nd) = entries kd nd)
      by (apply firstn_all2; rewrite entries_length; lia).
    assert (Hx : fst (snd x) = skipn (S last - m) (entries kd nd) ++ entries kd other).
    { unfold x, split_off, abs. cbn [fst snd]. rewrite entries_length, EC.
      destruct (_ || _); reflexivity. }
    destruct (move_entries_loop_ok data nd m last other HO) as [o1 [E1 [J1 [[J2 J2'] J3]]]]; [lia|lia| |].
    { rewrite Hall, <- Hx. exact HR. }
    rewrite Hall in J3. rewrite E1. cbn [bind].
    destruct (move_edge_ok data nd o1 HI J1) as [a [b [E3 [A1 [B1 [A2 [B2 [A3 [B3 [A4 [A5 B5]]]]]]]]]]].
    rewrite E3.
    assert (Hfin : forall s, s = (S last - m)%nat ->
      exists a', remove kd a s last = Ok a' /\ inv data a' /\ n_leaf a' = n_leaf nd /\ (abs a', abs b) = x).
    { intros s Hs. destruct (remove_ok data a s last A1) as [nd1 [E2 [K1 [[K2 K2'] K3]]]]; [lia|lia|].
      exists nd1. split; [assumption|]. split; [assumption|]. split; [congruence|].
      assert (HF : firstn s (entries kd nd) ++ skipn (S last) (entries kd nd) =
        firstn (S last - m) (entries kd nd)).
      { rewrite skipn_all2, app_nil_r by (rewrite entries_length; lia). now rewrite Hs. }
      unfold x, split_off, abs. cbn [fst snd]. rewrite entries_length, EC.
      rewrite K2', A5, B5, B2, K3, A2, HF, J3, J2'. rewrite <- (entries_length o1), J3.
      match goal with |- context [if ?c then _ else _] => destruct c end; reflexivity. }
    destruct (Nat.eqb_spec m (S last)) as [Hf|Hf].
    + destruct (Hfin 0%nat) as [a' [E4 [K1 [K2 K3]]]]; [lia|]. rewrite E4. cbn [bind].
      exists a', b, last. split; [reflexivity|]. repeat (split; [assumption|]). split; [congruence|].
      split; [assumption|]. lia.
    + destruct (Hfin (S (last - m))) as [a' [E4 [K1 [K2 K3]]]]; [lia|]. rewrite E4. cbn [bind].
      exists a', b, (last - (last - m))%nat. split; [reflexivity|]. repeat (split; [assumption|]).
      split; [congruence|]. split; [assumption|]. lia.
Qed.

Lemma copy_edge_ok : forall data nd other start n x, inv data nd ->
  entries kd nd = x ++ firstn n (skipn start (entries kd other)) ->
  inv data (copy_edge nd other (start + n)) /\ n_leaf (copy_edge nd other (start + n)) = n_leaf nd /\
  abs (copy_edge nd other (start + n)) = append (x, n_edge nd) (abs other) start n.
Proof.
  intros data nd other start n x HI HE. unfold copy_edge, append, abs. cbn [fst snd].
  rewrite entries_length. destruct (n_edge other) as [e|]; [destruct (start + n =? count other)%nat|].
  - destruct (with_edge_ok data nd (Some e) HI) as [H1 H2]. split; [exact H1|]. split; [reflexivity|].
    now rewrite H2, HE.
  - now rewrite HE.
  - now rewrite HE.
Qed.

Lemma copy_size_loop_ok : forall data other l nd size k, inv data nd ->
  let L := map (ent_of other) l in let p := prefix_in kd L size in
  used kd (entries kd nd ++ firstn p L) <= data - hdr ->
  exists nd', copy_size_loop kd srt nd other l size k = Ok (nd', (k + p)%nat) /\ inv data nd' /\
    same nd nd' /\ entries kd nd' = entries kd nd ++ firstn p L.
Proof.
  intros data other. induction l as [|r l IH]; intros nd size k HI L p HR.
  - exists nd. cbn [copy_size_loop]. split; [unfold p, L; cbn; now rewrite Nat.add_0_r|].
    split; [assumption|]. split; [apply same_refl|]. unfold p, L. cbn. now rewrite app_nil_r.
  - cbn [copy_size_loop]. rewrite <- esize_of with (nd := other).
    unfold p, L in *. cbn [map prefix_in] in *.
    destruct (N.ltb_spec size (esize kd (ent_of other r))) as [Hs|Hs].
    + exists nd. split; [now rewrite Nat.add_0_r|]. split; [assumption|]. split; [apply same_refl|].
      now rewrite app_nil_r.
    + cbn [firstn] in HR |- *. assert (HR' := HR). rewrite used_app in HR'. cbn [used fold_right] in HR'.
      destruct (insert_of data other nd (count nd) r HI) as [n1 [E1 [J1 [J2 J3]]]]; [lia|lia|].
      rewrite E1. cbn [bind].
      rewrite firstn_all2, skipn_all2 in J3 by (rewrite entries_length; lia).
      destruct (IH n1 (size - esize kd (ent_of other r)) (S k) J1) as [n2 [E2 [K1 [K2 K3]]]].
      * rewrite J3, <- app_assoc. exact HR.
      * exists n2. rewrite <- Nat.add_succ_comm. split; [exact E2|]. split; [assumption|].
        split; [eapply same_trans; eauto|]. rewrite K3, J3, <- app_assoc. reflexivity.
Qed.

Lemma copy_entries_loop_ok : forall data other l nd, inv data nd ->
  used kd (entries kd nd ++ map (ent_of other) l) <= data - hdr ->
  exists nd', copy_entries_loop kd srt nd other l = Ok nd' /\ inv data nd' /\
    same nd nd' /\ entries kd nd' = entries kd nd ++ map (ent_of other) l.
Proof.
  intros data other. induction l as [|r l IH]; intros nd HI HR.
  - exists nd. split; [reflexivity|]. split; [assumption|]. split; [apply same_refl|].
    cbn. now rewrite app_nil_r.
  - cbn [copy_entries_loop]. cbn [map] in *. assert (HR' := HR). rewrite used_app in HR'.
    cbn [used fold_right] in HR'.
    destruct (insert_of data other nd (count nd) r HI) as [n1 [E1 [J1 [J2 J3]]]]; [lia|lia|].
    rewrite E1. cbn [bind].
    rewrite firstn_all2, skipn_all2 in J3 by (rewrite entries_length; lia).
    destruct (IH n1 J1) as [n2 [E2 [K1 [K2 K3]]]].
    + rewrite J3, <- app_assoc. exact HR.
    + exists n2. split; [exact E2|]. split; [assumption|].
      split; [eapply same_trans; eauto|]. rewrite K3, J3, <- app_assoc. reflexivity.
Qed.

End Sort.
End Kind.
