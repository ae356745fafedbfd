(** Proofs about the operations on the entries of a B-tree node. *)
From Coq Require Import ZArith NArith List Bool Lia Sorting.Sorted.
From Coq Require Import ZifyBool ZifyNat.
From Verif Require Import Base BtNodeModel BtNodeSpec.
Import ListNotations.
Local Open Scope Z_scope.

Section Poly.
Context {A : Type}.
Implicit Types es a b : list (Z * A).

Definition all_lt (k : Z) es := Forall (fun p => fst p < k) es.
Definition all_ge (k : Z) es := Forall (fun p => k <= fst p) es.
Definition all_gt (k : Z) es := Forall (fun p => k < fst p) es.
Definition all_le (k : Z) es := Forall (fun p => fst p <= k) es.

Lemma sorted_cons : forall p es,
  sorted (p :: es) <-> all_gt (fst p) es /\ sorted es.
Proof.
  intros p es. unfold sorted, all_gt. cbn [map].
  split.
  - intros H. inversion H as [|x y H1 H2]; subst. split; [|assumption].
    rewrite Forall_map in H2. exact H2.
  - intros [H1 H2]. constructor; [assumption|]. now rewrite Forall_map.
Qed.

Lemma sorted_nil : sorted (@nil (Z * A)).
Proof. constructor. Qed.

Lemma sorted_app : forall a b,
  sorted (a ++ b) <->
  sorted a /\ sorted b /\ Forall (fun p => all_gt (fst p) b) a.
Proof.
  induction a as [|p a IH]; intros b.
  - cbn. split; [intros H; repeat split; [apply sorted_nil|assumption|constructor]|tauto].
  - cbn [app]. rewrite !sorted_cons, IH. unfold all_gt at 1 2. rewrite Forall_app.
    split.
    + intros [[H1 H2] [H3 [H4 H5]]]. repeat split; try assumption.
      constructor; assumption.
    + intros [[H1 H2] [H3 H4]]. inversion H4; subst. tauto.
Qed.

Lemma sorted_nth : forall es i j p q, sorted es ->
  nth_error es i = Some p -> nth_error es j = Some q -> (i < j)%nat ->
  fst p < fst q.
Proof.
  induction es as [|x es IH]; intros i j p q HS Hi Hj Hlt.
  - destruct i; discriminate.
  - apply sorted_cons in HS. destruct HS as [HG HS].
    destruct j as [|j]; [lia|]. cbn [nth_error] in Hj.
    destruct i as [|i]; cbn [nth_error] in Hi.
    + injection Hi as <-. unfold all_gt in HG. rewrite Forall_forall in HG.
      apply HG. eapply nth_error_In; eassumption.
    + eapply IH; eauto. lia.
Qed.

Lemma nth_key_some : forall es i, 0 <= i < Z.of_nat (length es) ->
  exists v, nth_error es (Z.to_nat i) = Some (nth_key es i, v).
Proof.
  intros es i Hi. unfold nth_key.
  destruct (nth_error es (Z.to_nat i)) as [[k v]|] eqn:E; [eauto|].
  apply nth_error_None in E. lia.
Qed.

Lemma nth_key_lt : forall es i j, sorted es -> 0 <= i -> i < j ->
  j < Z.of_nat (length es) -> nth_key es i < nth_key es j.
Proof.
  intros es i j HS H0 H1 H2.
  destruct (nth_key_some es i) as [v Hv]; [lia|].
  destruct (nth_key_some es j) as [w Hw]; [lia|].
  apply (sorted_nth es (Z.to_nat i) (Z.to_nat j) _ _ HS Hv Hw). lia.
Qed.

Lemma bsearch_ok : forall fuel es key s e, sorted es ->
  (Z.to_nat (e - s) <= fuel)%nat -> -1 <= s -> s < e ->
  e <= Z.of_nat (length es) ->
  (forall i, 0 <= i <= s -> nth_key es i < key) ->
  (forall i, e <= i < Z.of_nat (length es) -> key < nth_key es i) ->
  let '(f, r) := bsearch fuel es key s e in
  0 <= r <= Z.of_nat (length es) /\
  (forall i, 0 <= i < r -> nth_key es i < key) /\
  (forall i, r <= i < Z.of_nat (length es) -> key <= nth_key es i) /\
  (f = true <-> r < Z.of_nat (length es) /\ nth_key es r = key).
Proof.
  induction fuel as [|fuel IH]; intros es key s e HS HF Hs Hse He HL HR.
  - exfalso. lia.
  - cbn [bsearch]. destruct (Z.leb_spec (e - s) 1) as [Hd|Hd].
    + assert (e = s + 1) by lia. subst e.
      split; [lia|]. split; [intros i Hi; apply HL; lia|].
      split; [intros i Hi; apply Z.lt_le_incl, HR; lia|].
      split; [discriminate|]. intros [H1 H2].
      specialize (HR (s + 1) ltac:(lia)). lia.
    + set (mid := s + (e - s) / 2).
      assert (Hm : s < mid < e) by (unfold mid; lia).
      destruct (Z.compare_spec (nth_key es mid) key) as [HE|HE|HE].
      * split; [lia|]. split.
        { intros i Hi. rewrite <- HE. apply nth_key_lt; try assumption; lia. }
        split.
        { intros i Hi. rewrite <- HE. destruct (Z.eq_dec mid i) as [->|Hn]; [lia|].
          apply Z.lt_le_incl. apply nth_key_lt; try assumption; lia. }
        split; [intros _; split; [lia|exact HE]|reflexivity].
      * apply IH; try assumption; try lia.
        intros i Hi. destruct (Z.eq_dec i mid) as [->|Hn]; [exact HE|].
        assert (nth_key es i < nth_key es mid) by (apply nth_key_lt; try assumption; lia).
        lia.
      * apply IH; try assumption; try lia.
        intros i Hi. destruct (Z.eq_dec i mid) as [->|Hn]; [exact HE|].
        assert (nth_key es mid < nth_key es i) by (apply nth_key_lt; try assumption; lia).
        lia.
Qed.

(** The index splits the entries in those below the key and the others. *)
Definition found_in (key : Z) b : bool :=
  match b with (k, _) :: _ => k =? key | [] => false end.

Lemma bsearch_split : forall es key, sorted es ->
  exists a b, es = a ++ b /\ all_lt key a /\ all_ge key b /\
    bsearch_node es key = (found_in key b, length a).
Proof.
  intros es key HS. unfold bsearch_node.
  pose proof (bsearch_ok (S (length es)) es key (-1) (Z.of_nat (length es)) HS
    ltac:(lia) ltac:(lia) ltac:(lia) ltac:(lia) ltac:(lia) ltac:(lia)) as H.
  destruct (bsearch _ _ _ _ _) as [f r]. destruct H as [Hr [HL [HG HF]]].
  exists (firstn (Z.to_nat r) es), (skipn (Z.to_nat r) es).
  split; [symmetry; apply firstn_skipn|].
  assert (Hlen : length (firstn (Z.to_nat r) es) = Z.to_nat r)
    by (rewrite firstn_length; lia).
  split; [|split].
  - unfold all_lt. apply Forall_forall. intros [k v] Hin.
    apply In_nth_error in Hin. destruct Hin as [i Hi].
    assert (Hil : (i < Z.to_nat r)%nat)
      by (rewrite <- Hlen; apply nth_error_Some; congruence).
    assert (Hi' : nth_error es i = Some (k, v)).
    { rewrite <- Hi. rewrite <- (firstn_skipn (Z.to_nat r) es) at 1.
      apply nth_error_app1. lia. }
    specialize (HL (Z.of_nat i) ltac:(lia)). unfold nth_key in HL.
    rewrite Nat2Z.id, Hi' in HL. exact HL.
  - unfold all_ge. apply Forall_forall. intros [k v] Hin.
    apply In_nth_error in Hin. destruct Hin as [i Hi].
    assert (Hi' : nth_error es (Z.to_nat r + i) = Some (k, v)).
    { rewrite <- (firstn_skipn (Z.to_nat r) es).
      rewrite nth_error_app2 by lia. rewrite Hlen.
      replace (Z.to_nat r + i - Z.to_nat r)%nat with i by lia. exact Hi. }
    assert (Hl : (Z.to_nat r + i < length es)%nat) by (apply nth_error_Some; congruence).
    specialize (HG (r + Z.of_nat i) ltac:(lia)). unfold nth_key in HG.
    replace (Z.to_nat (r + Z.of_nat i)) with (Z.to_nat r + i)%nat in HG by lia.
    rewrite Hi' in HG. exact HG.
  - rewrite Hlen. f_equal.
    destruct (Z_lt_dec r (Z.of_nat (length es))) as [Hlt|Hge].
    + destruct (nth_key_some es r) as [v Hv]; [lia|].
      assert (HE : skipn (Z.to_nat r) es =
                   (nth_key es r, v) :: skipn (S (Z.to_nat r)) es).
      { clear - Hv. revert Hv. generalize (nth_key es r) as k.
        generalize (Z.to_nat r) as n. induction es as [|x es IH]; intros n k Hn.
        - destruct n; discriminate.
        - destruct n as [|n]; cbn in Hn |- *; [now injection Hn as ->|].
          now apply IH. }
      rewrite HE. cbn [found_in].
      destruct f; destruct (Z.eqb_spec (nth_key es r) key) as [H1|H1]; try reflexivity.
      * destruct HF as [HF _]. destruct (HF eq_refl) as [_ H2]. contradiction.
      * destruct HF as [_ HF]. discriminate HF. split; assumption.
    + rewrite skipn_all2 by lia. cbn. destruct f; [|reflexivity].
      destruct HF as [HF _]. destruct (HF eq_refl). lia.
Qed.

Lemma bsearch_at : forall a b key, sorted (a ++ b) -> all_lt key a ->
  all_ge key b -> bsearch_node (a ++ b) key = (found_in key b, length a).
Proof.
  intros a b key HS Ha Hb.
  destruct (bsearch_split (a ++ b) key HS) as [a' [b' [HE [Ha' [Hb' ->]]]]].
  assert (a = a' /\ b = b') as [-> ->]; [|reflexivity].
  clear HS. revert a' HE Ha'. induction a as [|p a IH]; intros a' HE Ha'.
  - destruct a' as [|q a']; [cbn in HE; auto|].
    cbn in HE. subst b. inversion Hb; subst. inversion Ha'; subst. lia.
  - destruct a' as [|q a'].
    + cbn in HE. subst b'. inversion Hb'; subst. inversion Ha; subst. lia.
    + cbn in HE. injection HE as -> HE. inversion Ha; subst. inversion Ha'; subst.
      destruct (IH ltac:(assumption) a' HE ltac:(assumption)) as [-> ->]. auto.
Qed.

Lemma firstn_len_app : forall (T : Type) (a b : list T), firstn (length a) (a ++ b) = a.
Proof.
  intros. rewrite firstn_app, Nat.sub_diag, firstn_all. cbn. apply app_nil_r.
Qed.
Lemma skipn_len_app : forall (T : Type) (a b : list T), skipn (length a) (a ++ b) = b.
Proof.
  intros. rewrite skipn_app, Nat.sub_diag, skipn_all. reflexivity.
Qed.
Lemma skipn_S_app : forall (T : Type) (a b : list T) x,
  skipn (S (length a)) (a ++ x :: b) = b.
Proof.
  intros. replace (S (length a)) with (length (a ++ [x])) by (rewrite app_length; cbn; lia).
  change (x :: b) with ([x] ++ b). rewrite app_assoc. apply skipn_len_app.
Qed.
Lemma nth_len_app : forall (T : Type) (a b : list T) x,
  nth_error (a ++ x :: b) (length a) = Some x.
Proof. intros. rewrite nth_error_app2, Nat.sub_diag by lia. reflexivity. Qed.

Lemma ins_at_app : forall a b k v, ins_at (a ++ b) (length a) k v = a ++ (k, v) :: b.
Proof. intros. unfold ins_at. now rewrite firstn_len_app, skipn_len_app. Qed.
Lemma upd_at_app : forall a b p k v,
  upd_at (a ++ p :: b) (length a) k v = a ++ (k, v) :: b.
Proof. intros. unfold upd_at. now rewrite firstn_len_app, skipn_S_app. Qed.
Lemma del_at_app : forall a b p, del_at (a ++ p :: b) (length a) = a ++ b.
Proof. intros. unfold del_at. now rewrite firstn_len_app, skipn_S_app. Qed.

(** ** Association lists *)

Lemma assoc_app : forall a b k,
  assoc (a ++ b) k = match assoc a k with Some v => Some v | None => assoc b k end.
Proof.
  induction a as [|[k' v] a IH]; intros b k; cbn; [reflexivity|].
  destruct (k' =? k); [reflexivity|apply IH].
Qed.
Lemma assoc_lt : forall a k, all_lt k a -> assoc a k = None.
Proof.
  induction a as [|[k' v] a IH]; intros k H; cbn; [reflexivity|].
  inversion H; subst. cbn in *. rewrite (proj2 (Z.eqb_neq k' k)) by lia. now apply IH.
Qed.
Lemma assoc_gt : forall a k, all_gt k a -> assoc a k = None.
Proof.
  induction a as [|[k' v] a IH]; intros k H; cbn; [reflexivity|].
  inversion H; subst. cbn in *. rewrite (proj2 (Z.eqb_neq k' k)) by lia. now apply IH.
Qed.
Lemma assoc_In : forall es k v, sorted es -> assoc es k = Some v <-> In (k, v) es.
Proof.
  induction es as [|[k' v'] es IH]; intros k v HS; cbn; [split; [discriminate|tauto]|].
  apply sorted_cons in HS. destruct HS as [HG HS]. cbn in HG.
  destruct (Z.eqb_spec k' k) as [->|Hn].
  - split; [intros [= ->]; auto|]. intros [[= ->]|Hin]; [reflexivity|].
    unfold all_gt in HG. rewrite Forall_forall in HG. specialize (HG _ Hin). cbn in HG. lia.
  - rewrite IH by assumption. split; [auto|]. intros [[= -> ->]|Hin]; [lia|assumption].
Qed.
Lemma assoc_none : forall es k, assoc es k = None <-> ~ In k (map fst es).
Proof.
  induction es as [|[k' v'] es IH]; intros k; cbn; [tauto|].
  destruct (Z.eqb_spec k' k) as [->|Hn].
  - split; [discriminate|]. intros H. exfalso. auto.
  - rewrite IH. split; [intros H [H1|H1]; auto|auto].
Qed.

End Poly.

(** ** Ranges on a leaf *)

Definition lo_ok (r : krange) (k : Z) : bool :=
  if r_sincl r then r_start r <=? k else r_start r <? k.
Definition hi_ok (r : krange) (k : Z) : bool :=
  if r_eincl r then k <=? r_end r else k <? r_end r.

Lemma in_range_ok : forall r k, in_range r k = lo_ok r k && hi_ok r k.
Proof. reflexivity. Qed.

Section Ranges.
Context {A : Type}.
Implicit Types es a b c d m : list (Z * A).

Lemma start_split : forall es r, sorted es ->
  exists a c, es = a ++ c /\
    Forall (fun p => lo_ok r (fst p) = false) a /\
    Forall (fun p => lo_ok r (fst p) = true) c /\
    (let '(sf, s0) := bsearch_node es (r_start r) in
     if sf && negb (r_sincl r) then S s0 else s0) = length a.
Proof.
  intros es r HS.
  destruct (bsearch_split es (r_start r) HS) as [a [b [HE [Ha [Hb ->]]]]]. subst es.
  destruct (r_sincl r) eqn:EI.
  - exists a, b. rewrite andb_false_r.
    split; [reflexivity|]. split; [|split; [|reflexivity]].
    + eapply Forall_impl; [|exact Ha]. intros p Hp. cbn beta in Hp. unfold lo_ok. rewrite EI. lia.
    + eapply Forall_impl; [|exact Hb]. intros p Hp. cbn beta in Hp. unfold lo_ok. rewrite EI.
      cbn in Hp. lia.
  - destruct b as [|[k v] b].
    + exists a, []. cbn [found_in andb]. split; [reflexivity|].
      split; [|split; [constructor|reflexivity]].
      eapply Forall_impl; [|exact Ha]. intros p Hp. cbn beta in Hp. unfold lo_ok. rewrite EI. lia.
    + cbn [found_in]. rewrite andb_true_r. destruct (Z.eqb_spec k (r_start r)) as [->|Hn].
      * exists (a ++ [(r_start r, v)]), b.
        split; [rewrite <- app_assoc; reflexivity|].
        apply sorted_app in HS. destruct HS as [_ [HS _]]. apply sorted_cons in HS.
        destruct HS as [HG _]. cbn in HG.
        split; [|split; [|rewrite app_length; cbn; lia]].
        { apply Forall_app. split.
          - eapply Forall_impl; [|exact Ha]. intros p Hp. cbn beta in Hp. unfold lo_ok. rewrite EI. lia.
          - constructor; [|constructor]. cbn. unfold lo_ok. rewrite EI. lia. }
        eapply Forall_impl; [|exact HG]. intros p Hp. cbn beta in Hp. unfold lo_ok. rewrite EI.
        cbn in Hp. lia.
      * exists a, ((k, v) :: b). split; [reflexivity|].
        apply sorted_app in HS. destruct HS as [_ [HS _]]. apply sorted_cons in HS.
        destruct HS as [HG _]. cbn in HG. inversion Hb as [|x y Hk Hb2]; subst. cbn in Hk.
        split; [|split; [|reflexivity]].
        { eapply Forall_impl; [|exact Ha]. intros p Hp. cbn beta in Hp. unfold lo_ok. rewrite EI. lia. }
        constructor; [cbn; unfold lo_ok; rewrite EI; lia|].
        eapply Forall_impl; [|exact HG]. intros p Hp. cbn beta in Hp. unfold lo_ok. rewrite EI.
        cbn in Hp. lia.
Qed.

(** The slots before [length d] are those not above the end of the range. *)
Lemma end_split : forall es r, sorted es ->
  exists d b, es = d ++ b /\
    Forall (fun p => hi_ok r (fst p) = true) d /\
    Forall (fun p => hi_ok r (fst p) = false) b /\
    (let '(ef, e0) := bsearch_node es (r_end r) in
     if negb ef || negb (r_eincl r) then e0 else S e0) = length d.
Proof.
  intros es r HS.
  destruct (bsearch_split es (r_end r) HS) as [a [b [HE [Ha [Hb ->]]]]]. subst es.
  destruct (r_eincl r) eqn:EI.
  - destruct b as [|[k v] b].
    + exists a, []. cbn [found_in negb orb]. split; [reflexivity|].
      split; [|split; [constructor|reflexivity]].
      eapply Forall_impl; [|exact Ha]. intros p Hp. cbn beta in Hp. unfold hi_ok. rewrite EI. lia.
    + cbn [found_in]. rewrite orb_false_r. destruct (Z.eqb_spec k (r_end r)) as [->|Hn].
      * exists (a ++ [(r_end r, v)]), b. cbn [negb].
        split; [rewrite <- app_assoc; reflexivity|].
        apply sorted_app in HS. destruct HS as [_ [HS _]]. apply sorted_cons in HS.
        destruct HS as [HG _]. cbn in HG.
        split; [|split; [|rewrite app_length; cbn; lia]].
        { apply Forall_app. split.
          - eapply Forall_impl; [|exact Ha]. intros p Hp. cbn beta in Hp. unfold hi_ok. rewrite EI. lia.
          - constructor; [|constructor]. cbn. unfold hi_ok. rewrite EI. lia. }
        eapply Forall_impl; [|exact HG]. intros p Hp. cbn beta in Hp. unfold hi_ok. rewrite EI.
        cbn in Hp. lia.
      * exists a, ((k, v) :: b). cbn [negb]. split; [reflexivity|].
        apply sorted_app in HS. destruct HS as [_ [HS _]]. apply sorted_cons in HS.
        destruct HS as [HG _]. cbn in HG. inversion Hb as [|x y Hk Hb2]; subst. cbn in Hk.
        split; [|split; [|reflexivity]].
        { eapply Forall_impl; [|exact Ha]. intros p Hp. cbn beta in Hp. unfold hi_ok. rewrite EI. lia. }
        constructor; [cbn; unfold hi_ok; rewrite EI; lia|].
        eapply Forall_impl; [|exact HG]. intros p Hp. cbn beta in Hp. unfold hi_ok. rewrite EI.
        cbn in Hp. lia.
  - exists a, b. rewrite orb_true_r. split; [reflexivity|].
    split; [|split; [|reflexivity]].
    + eapply Forall_impl; [|exact Ha]. intros p Hp. cbn beta in Hp. unfold hi_ok. rewrite EI. lia.
    + eapply Forall_impl; [|exact Hb]. intros p Hp. cbn beta in Hp. unfold hi_ok. rewrite EI.
      cbn in Hp. lia.
Qed.

Lemma app_eq_len : forall (T : Type) (a c d b : list T), a ++ c = d ++ b ->
  (length a <= length d)%nat -> exists m : list T, d = a ++ m /\ c = m ++ b.
Proof.
  induction a as [|x a IH]; intros c d b HE HL; cbn in *.
  - exists d. auto.
  - destruct d as [|y d]; cbn in *; [lia|]. injection HE as -> HE.
    destruct (IH c d b HE ltac:(lia)) as [m [-> ->]]. exists m. auto.
Qed.

Lemma match_leaf : forall es r, sorted es ->
  (match_range true false es r = None /\
   Forall (fun p => in_range r (fst p) = false) es) \/
  (exists a m b, es = a ++ m ++ b /\ m <> [] /\
   Forall (fun p => in_range r (fst p) = false) a /\
   Forall (fun p => in_range r (fst p) = true) m /\
   Forall (fun p => in_range r (fst p) = false) b /\
   match_range true false es r = Some (length a, length a + length m - 1)%nat).
Proof.
  intros es r HS.
  destruct (start_split es r HS) as [a [c [HE1 [Ha [Hc Hs]]]]].
  destruct (end_split es r HS) as [d [b [HE2 [Hd [Hb He]]]]].
  assert (HNa : Forall (fun p => in_range r (fst p) = false) a).
  { eapply Forall_impl; [|exact Ha]. intros p Hp. cbn in Hp.
    rewrite in_range_ok, Hp. reflexivity. }
  assert (HNb : Forall (fun p => in_range r (fst p) = false) b).
  { eapply Forall_impl; [|exact Hb]. intros p Hp. cbn in Hp.
    rewrite in_range_ok, Hp. apply andb_false_r. }
  destruct (Nat.leb_spec (length d) (length a)) as [HL|HL].
  - left. split.
    + unfold match_range. destruct (bsearch_node es (r_start r)) as [sf s0].
      destruct (bsearch_node es (r_end r)) as [ef e0]. rewrite Hs. cbn [orb negb andb].
      destruct (Nat.eqb_spec (length a) (length es)) as [Hn|Hn]; [reflexivity|].
      destruct (negb ef || negb (r_eincl r)).
      * destruct e0 as [|e]; [reflexivity|].
        rewrite (proj2 (Nat.ltb_lt e (length a))) by lia. reflexivity.
      * rewrite (proj2 (Nat.ltb_lt e0 (length a))) by lia. reflexivity.
    + destruct (app_eq_len _ d b a c ltac:(congruence) HL) as [m [-> ->]].
      subst es. apply Forall_app. split; [assumption|].
      rewrite Forall_app in HNb. tauto.
  - right.
    destruct (app_eq_len _ a c d b ltac:(congruence) ltac:(lia)) as [m [-> ->]].
    exists a, m, b. rewrite app_length in HL, He.
    split; [assumption|]. split; [destruct m; cbn in *; [lia|discriminate]|].
    split; [assumption|]. split; [|split; [assumption|]].
    + rewrite Forall_forall in *. intros p Hp. rewrite in_range_ok.
      rewrite (Hc p), (Hd p); [reflexivity|apply in_or_app; auto|apply in_or_app; auto].
    + assert (Hlen : length es = (length a + (length m + length b))%nat)
        by (rewrite HE1, !app_length; lia).
      unfold match_range. destruct (bsearch_node es (r_start r)) as [sf s0].
      destruct (bsearch_node es (r_end r)) as [ef e0]. rewrite Hs. cbn [orb negb andb].
      rewrite (proj2 (Nat.eqb_neq (length a) (length es))) by lia.
      destruct (negb ef || negb (r_eincl r)).
      * destruct e0 as [|e]; [lia|].
        rewrite (proj2 (Nat.ltb_ge e (length a))) by lia. do 2 f_equal. lia.
      * rewrite (proj2 (Nat.ltb_ge e0 (length a))) by lia. do 2 f_equal. lia.
Qed.

Lemma filter_true : forall (f : Z * A -> bool) l,
  Forall (fun p => f p = true) l -> filter f l = l.
Proof.
  intros f l H. induction H as [|p l Hp H IH]; cbn; [reflexivity|]. now rewrite Hp, IH.
Qed.
Lemma filter_false : forall (f : Z * A -> bool) l,
  Forall (fun p => f p = false) l -> filter f l = [].
Proof.
  intros f l H. induction H as [|p l Hp H IH]; cbn; [reflexivity|]. now rewrite Hp, IH.
Qed.

Lemma filter_segment : forall (a m b : list (Z * A)) (g : Z * A -> bool),
  Forall (fun p => g p = false) a -> Forall (fun p => g p = true) m ->
  Forall (fun p => g p = false) b -> filter g (a ++ m ++ b) = m.
Proof.
  intros. rewrite !filter_app, (filter_false g a), (filter_true g m),
    (filter_false g b) by assumption. cbn. apply app_nil_r.
Qed.

End Ranges.

(** ** Operations of a leaf *)

Lemma multi_get_ok : forall es r max f, sorted es ->
  multi_get es r max f =
  filter (fun p => accepts f (fst p) (snd p))
    (firstn max (filter (fun p => in_range r (fst p)) es)).
Proof.
  intros es r max f HS. unfold multi_get.
  destruct (match_leaf es r HS) as [[-> HN]|[a [m [b [-> [Hm [Ha [HM [Hb ->]]]]]]]]].
  - rewrite (filter_false (fun p => in_range r (fst p))) by assumption. now destruct max.
  - rewrite (filter_segment a m b (fun p => in_range r (fst p))) by assumption.
    rewrite skipn_len_app. f_equal.
    assert (Hl : (length m <> 0)%nat) by (destruct m; cbn; congruence).
    replace (length a + length m - 1 - length a + 1)%nat with (length m) by lia.
    destruct (Nat.leb_spec (length m) max) as [H|H].
    + rewrite Nat.min_l by lia. rewrite firstn_len_app. symmetry. now apply firstn_all2.
    + rewrite Nat.min_r by lia. rewrite firstn_app.
      replace (max - length m)%nat with 0%nat by lia. cbn. apply app_nil_r.
Qed.

Lemma multi_remove_loop_ok : forall m a b f,
  multi_remove_loop (length m) (a ++ m ++ b) (length a) f =
  a ++ filter (fun p => negb (accepts f (fst p) (snd p))) m ++ b.
Proof.
  induction m as [|[k v] m IH]; intros a b f; cbn [length multi_remove_loop]; [reflexivity|].
  cbn [app]. rewrite nth_len_app. cbn [filter fst snd].
  destruct (accepts f k v); cbn [negb].
  - rewrite del_at_app. apply IH.
  - change (a ++ (k, v) :: m ++ b) with (a ++ [(k, v)] ++ (m ++ b)).
    rewrite app_assoc.
    replace (S (length a)) with (length (a ++ [(k, v)])) by (rewrite app_length; cbn; lia).
    rewrite IH. rewrite <- app_assoc. reflexivity.
Qed.

Lemma filter_length_le' : forall (T : Type) (g : T -> bool) l,
  (length (filter g l) <= length l)%nat.
Proof. induction l as [|x l IH]; cbn; [lia|]. destruct (g x); cbn; lia. Qed.

Lemma multi_remove_ok : forall es r f, sorted es ->
  snd (multi_remove es r f) =
    filter (fun p => negb (in_range r (fst p) && accepts f (fst p) (snd p))) es /\
  fst (multi_remove es r f) =
    length (filter (fun p => in_range r (fst p) && accepts f (fst p) (snd p)) es).
Proof.
  intros es r f HS. unfold multi_remove.
  destruct (match_leaf es r HS) as [[-> HN]|[a [m [b [-> [Hm [Ha [HM [Hb ->]]]]]]]]].
  - cbn [fst snd]. rewrite filter_true, filter_false; [split; reflexivity| |].
    + eapply Forall_impl; [|exact HN]. intros p Hp. cbn in Hp. now rewrite Hp.
    + eapply Forall_impl; [|exact HN]. intros p Hp. cbn in Hp. now rewrite Hp.
  - assert (Hl : (length m <> 0)%nat) by (destruct m; cbn; congruence).
    replace (length a + length m - 1 - length a + 1)%nat with (length m) by lia.
    rewrite multi_remove_loop_ok. cbn [fst snd].
    assert (H1 : forall l, Forall (fun p : Z * N => in_range r (fst p) = false) l ->
      filter (fun p => negb (in_range r (fst p) && accepts f (fst p) (snd p))) l = l).
    { intros l Hl'. apply filter_true. eapply Forall_impl; [|exact Hl'].
      intros p Hp. cbn in Hp. now rewrite Hp. }
    assert (H2 : forall l, Forall (fun p : Z * N => in_range r (fst p) = false) l ->
      filter (fun p => in_range r (fst p) && accepts f (fst p) (snd p)) l = []).
    { intros l Hl'. apply filter_false. eapply Forall_impl; [|exact Hl'].
      intros p Hp. cbn in Hp. now rewrite Hp. }
    rewrite !filter_app, (H1 a), (H1 b), (H2 a), (H2 b) by assumption.
    assert (H3 : forall l, Forall (fun p : Z * N => in_range r (fst p) = true) l ->
      filter (fun p => negb (in_range r (fst p) && accepts f (fst p) (snd p))) l =
      filter (fun p => negb (accepts f (fst p) (snd p))) l /\
      length l = (length (filter (fun p => negb (accepts f (fst p) (snd p))) l) +
      length (filter (fun p => in_range r (fst p) && accepts f (fst p) (snd p)) l))%nat).
    { induction 1 as [|p l Hp Hr [IH1 IH2]]; cbn [filter length]; [split; reflexivity|].
      rewrite Hp. cbn [andb]. destruct (accepts f (fst p) (snd p)); cbn [negb length];
        rewrite IH1; split; try reflexivity; lia. }
    destruct (H3 m HM) as [-> H4]. split; [reflexivity|].
    rewrite !app_length. cbn [app length]. lia.
Qed.

Lemma leaf_find_ok : forall es k, sorted es -> leaf_find es k = assoc es k.
Proof.
  intros es k HS. unfold leaf_find.
  destruct (bsearch_split es k HS) as [a [b [-> [Ha [Hb ->]]]]].
  rewrite assoc_app, assoc_lt by assumption.
  destruct b as [|[k' v] b]; cbn [found_in]; [reflexivity|].
  cbn [assoc]. destruct (Z.eqb_spec k' k) as [->|Hn].
  - now rewrite nth_len_app.
  - rewrite assoc_gt; [reflexivity|]. apply sorted_app in HS.
    destruct HS as [_ [HS _]]. apply sorted_cons in HS. destruct HS as [HG _].
    inversion Hb; subst. cbn in *. eapply Forall_impl; [|exact HG]. cbn. lia.
Qed.

(** Insertion in, and removal from, a sorted list. *)
Fixpoint put_list (k : Z) (v : N) (l : list (Z * N)) : list (Z * N) :=
  match l with
  | [] => [(k, v)]
  | (k', v') :: r =>
      if k <? k' then (k, v) :: l
      else if k =? k' then (k, v) :: r
      else (k', v') :: put_list k v r
  end.
Fixpoint del_list (k : Z) (l : list (Z * N)) : list (Z * N) :=
  match l with
  | [] => []
  | (k', v') :: r => if k =? k' then r else (k', v') :: del_list k r
  end.

Lemma put_list_app : forall a k v b, all_lt k a -> put_list k v (a ++ b) = a ++ put_list k v b.
Proof.
  induction a as [|[k' v'] a IH]; intros k v b H; cbn; [reflexivity|].
  inversion H; subst. cbn in *.
  rewrite (proj2 (Z.ltb_ge k k')), (proj2 (Z.eqb_neq k k')) by lia. now rewrite IH.
Qed.
Lemma put_list_gt : forall k v m b, all_gt k b -> put_list k v (m ++ b) = put_list k v m ++ b.
Proof.
  induction m as [|[k' v'] m IH]; intros b H; cbn.
  - destruct b as [|[k' v'] b]; [reflexivity|]. inversion H; subst. cbn in *.
    now rewrite (proj2 (Z.ltb_lt k k')) by lia.
  - destruct (k <? k'); [reflexivity|]. destruct (k =? k'); [reflexivity|]. cbn.
    now rewrite IH.
Qed.
Lemma del_list_app : forall a k b, all_lt k a -> del_list k (a ++ b) = a ++ del_list k b.
Proof.
  induction a as [|[k' v'] a IH]; intros k b H; cbn; [reflexivity|].
  inversion H; subst. cbn in *. rewrite (proj2 (Z.eqb_neq k k')) by lia. now rewrite IH.
Qed.
Lemma del_list_none : forall k b, ~ In k (map fst b) -> del_list k b = b.
Proof.
  induction b as [|[k' v'] b IH]; intros H; cbn in *; [reflexivity|].
  rewrite (proj2 (Z.eqb_neq k k')) by auto. now rewrite IH by auto.
Qed.
Lemma del_list_gt : forall k m b, all_gt k b -> del_list k (m ++ b) = del_list k m ++ b.
Proof.
  induction m as [|[k' v'] m IH]; intros b H; cbn.
  - apply del_list_none. intros Hin. apply in_map_iff in Hin. destruct Hin as [p [<- Hp]].
    unfold all_gt in H. rewrite Forall_forall in H. specialize (H p Hp). lia.
  - destruct (k =? k'); [reflexivity|]. cbn. now rewrite IH.
Qed.

Lemma put_list_assoc : forall k v l k', sorted l ->
  assoc (put_list k v l) k' = if k' =? k then Some v else assoc l k'.
Proof.
  induction l as [|[k0 v0] l IH]; intros k' HS; cbn.
  - rewrite (Z.eqb_sym k k'). destruct (k' =? k); reflexivity.
  - apply sorted_cons in HS. destruct HS as [HG HS]. cbn in HG.
    destruct (Z.ltb_spec k k0).
    + cbn. rewrite (Z.eqb_sym k k'). destruct (Z.eqb_spec k' k) as [->|]; [reflexivity|].
      reflexivity.
    + destruct (Z.eqb_spec k k0) as [->|]; cbn.
      * rewrite (Z.eqb_sym k0 k'). destruct (k' =? k0); reflexivity.
      * rewrite IH by assumption. destruct (Z.eqb_spec k0 k') as [->|]; [|reflexivity].
        now rewrite (proj2 (Z.eqb_neq k' k)) by lia.
Qed.
Lemma del_list_assoc : forall k l k', sorted l ->
  assoc (del_list k l) k' = if k' =? k then None else assoc l k'.
Proof.
  induction l as [|[k0 v0] l IH]; intros k' HS; cbn.
  - now destruct (k' =? k).
  - apply sorted_cons in HS. destruct HS as [HG HS]. cbn in HG.
    destruct (Z.eqb_spec k k0) as [->|].
    + destruct (Z.eqb_spec k' k0) as [->|].
      * apply assoc_gt. exact HG.
      * now rewrite (proj2 (Z.eqb_neq k0 k')) by auto.
    + cbn. rewrite IH by assumption. destruct (Z.eqb_spec k0 k') as [->|]; [|reflexivity].
      now rewrite (proj2 (Z.eqb_neq k' k)) by lia.
Qed.

Lemma put_list_in : forall k v l p, In p (put_list k v l) -> p = (k, v) \/ In p l.
Proof.
  induction l as [|[k0 v0] l IH]; intros p; cbn; [intuition|].
  destruct (k <? k0); [cbn; intuition|]. destruct (k =? k0); cbn; [intuition|].
  intros [H|H]; [auto|]. apply IH in H. intuition.
Qed.
Lemma del_list_in : forall k l p, In p (del_list k l) -> In p l.
Proof.
  induction l as [|[k0 v0] l IH]; intros p; cbn; [auto|].
  destruct (k =? k0); cbn; [auto|]. intros [H|H]; auto.
Qed.
Lemma put_list_sorted : forall k v l, sorted l -> sorted (put_list k v l).
Proof.
  induction l as [|[k0 v0] l IH]; intros HS; cbn.
  - apply sorted_cons. split; [constructor|apply sorted_nil].
  - pose proof HS as HS0. apply sorted_cons in HS. destruct HS as [HG HS]. cbn in HG.
    destruct (Z.ltb_spec k k0).
    + apply sorted_cons. split; [|assumption]. constructor; [cbn; lia|].
      eapply Forall_impl; [|exact HG]. cbn. lia.
    + destruct (Z.eqb_spec k k0) as [->|].
      * apply sorted_cons. split; assumption.
      * apply sorted_cons. split; [|now apply IH]. unfold all_gt in *.
        rewrite Forall_forall in *. intros p Hp. apply put_list_in in Hp.
        destruct Hp as [->|Hp]; [cbn; lia|now apply HG].
Qed.
Lemma del_list_sorted : forall k l, sorted l -> sorted (del_list k l).
Proof.
  induction l as [|[k0 v0] l IH]; intros HS; cbn; [apply sorted_nil|].
  apply sorted_cons in HS. destruct HS as [HG HS]. cbn in HG.
  destruct (k =? k0); [assumption|]. apply sorted_cons. split; [|now apply IH].
  unfold all_gt in *. rewrite Forall_forall in *. intros p Hp. apply HG.
  eapply del_list_in; eassumption.
Qed.

Lemma leaf_put_ok : forall es kd k v f, sorted es ->
  let '(st, old, es') := leaf_put es kd k v f in
  st = fst (put_spec kd v f k (assoc es k)) /\
  old = assoc es k /\
  es' = (if match st with StSuccess => true | _ => false end
         then put_list k v es else es).
Proof.
  intros es kd k v f HS. unfold leaf_put.
  destruct (bsearch_split es k HS) as [a [b [-> [Ha [Hb ->]]]]].
  rewrite assoc_app, assoc_lt by assumption.
  destruct b as [|[k' v'] b]; cbn [found_in].
  - cbn [assoc]. rewrite put_list_app by assumption.
    destruct kd; cbn [put_spec fst]; rewrite ?app_nil_r; try (split; [reflexivity|split; reflexivity]).
    + split; [reflexivity|split; [reflexivity|]].
      pose proof (ins_at_app a [] k v) as H. rewrite app_nil_r in H. exact H.
    + split; [reflexivity|split; [reflexivity|]].
      pose proof (ins_at_app a [] k v) as H. rewrite app_nil_r in H. exact H.
  - rewrite nth_len_app. cbn [assoc]. destruct (Z.eqb_spec k' k) as [->|Hn].
    + cbn [option_map snd]. unfold put_spec.
      rewrite put_list_app by assumption. cbn [put_list].
      rewrite (proj2 (Z.ltb_ge k k)), Z.eqb_refl by lia.
      destruct f as [g|].
      * destruct (g k v' v); cbn [fst]; try (split; [reflexivity|split; reflexivity]).
        destruct kd; cbn [fst]; (split; [reflexivity|split; [reflexivity|]]);
          try reflexivity; apply upd_at_app.
      * destruct kd; cbn [fst]; (split; [reflexivity|split; [reflexivity|]]);
          try reflexivity; apply upd_at_app.
    + assert (HG : all_gt k ((k', v') :: b)).
      { apply sorted_app in HS. destruct HS as [_ [HS _]]. apply sorted_cons in HS.
        destruct HS as [HG _]. inversion Hb; subst. cbn in *. constructor; [cbn; lia|].
        eapply Forall_impl; [|exact HG]. cbn. lia. }
      rewrite (assoc_gt b k) by (inversion HG; subst; assumption).
      rewrite put_list_app by assumption. cbn [put_list].
      inversion HG; subst; cbn in *. rewrite (proj2 (Z.ltb_lt k k')) by lia.
      destruct kd; cbn [put_spec fst]; (split; [reflexivity|split; [reflexivity|]]);
        try reflexivity; apply ins_at_app.
Qed.

Lemma leaf_remove_ok : forall es k, sorted es ->
  leaf_remove es k =
  (match assoc es k with Some _ => true | None => false end,
   assoc es k, del_list k es).
Proof.
  intros es k HS. unfold leaf_remove.
  destruct (bsearch_split es k HS) as [a [b [-> [Ha [Hb ->]]]]].
  rewrite assoc_app, assoc_lt by assumption. rewrite del_list_app by assumption.
  destruct b as [|[k' v'] b]; cbn [found_in]; [reflexivity|].
  cbn [assoc del_list]. rewrite (Z.eqb_sym k k'). destruct (Z.eqb_spec k' k) as [->|Hn].
  - rewrite nth_len_app, del_at_app. reflexivity.
  - assert (HG : all_gt k b).
    { apply sorted_app in HS. destruct HS as [_ [HS _]]. apply sorted_cons in HS.
      destruct HS as [HG _]. inversion Hb; subst. cbn in *.
      eapply Forall_impl; [|exact HG]. cbn. lia. }
    rewrite assoc_gt by assumption. rewrite del_list_none; [reflexivity|].
    apply assoc_none. now apply assoc_gt.
Qed.

(** Range update without a filter, when every value fits. *)
Lemma multi_put_loop_ok : forall m a b fuel room v,
  (forall es k, room es k = true) -> (length m < fuel)%nat ->
  m <> [] ->
  multi_put_loop fuel room (a ++ m ++ b) (length a) (length a + length m - 1) v None
  = Some (StSuccess, None, a ++ map (fun p => (fst p, v)) m ++ b).
Proof.
  induction m as [|[k v0] m IH]; intros a b fuel room v HR HF Hm; [congruence|].
  destruct fuel as [|fuel]; [cbn in HF; lia|]. cbn [multi_put_loop].
  cbn [length] in *. rewrite (proj2 (Nat.ltb_ge _ _)) by lia.
  cbn [app]. rewrite nth_len_app, HR. cbn [negb]. rewrite upd_at_app. cbn [map fst].
  destruct m as [|p m].
  - destruct fuel as [|fuel]; [cbn in HF; lia|]. cbn [multi_put_loop length].
    rewrite (proj2 (Nat.ltb_lt _ _)) by lia. reflexivity.
  - change (a ++ (k, v) :: (p :: m) ++ b) with (a ++ [(k, v)] ++ ((p :: m) ++ b)).
    rewrite app_assoc.
    replace (S (length a)) with (length (a ++ [(k, v)])) by (rewrite app_length; cbn; lia).
    replace (length a + S (length (p :: m)) - 1)%nat
      with (length (a ++ [(k, v)]) + length (p :: m) - 1)%nat
      by (rewrite app_length; cbn; lia).
    rewrite IH; [|assumption|lia|discriminate]. rewrite <- app_assoc. reflexivity.
Qed.

Lemma multi_put_ok : forall es r v room, sorted es ->
  (forall es k, room es k = true) ->
  multi_put room es r PUpdate v None =
  Some (if existsb (fun p => in_range r (fst p)) es then StSuccess else StNotFound, None,
        map (fun p => if in_range r (fst p) then (fst p, v) else p) es).
Proof.
  intros es r v room HS HR. unfold multi_put.
  destruct (match_leaf es r HS) as [[-> HN]|[a [m [b [-> [Hm [Ha [HM [Hb ->]]]]]]]]].
  - do 2 f_equal.
    + f_equal. replace (existsb _ es) with false; [reflexivity|].
      symmetry. apply not_true_is_false. intros H. apply existsb_exists in H.
      destruct H as [p [Hp H]]. rewrite Forall_forall in HN. rewrite HN in H; congruence.
    + rewrite <- (map_id es) at 1. apply map_ext_in. intros p Hp.
      rewrite Forall_forall in HN. now rewrite HN.
  - rewrite multi_put_loop_ok; [|assumption| |assumption].
    + do 2 f_equal.
      * f_equal. rewrite !existsb_app. destruct m as [|p m]; [congruence|].
        inversion HM; subst. cbn. rewrite H1. cbn. now rewrite orb_true_r.
      * rewrite !map_app. f_equal; [|f_equal].
        { rewrite <- (map_id a) at 1. apply map_ext_in. intros p Hp.
          rewrite Forall_forall in Ha. now rewrite Ha. }
        { apply map_ext_in. intros p Hp. rewrite Forall_forall in HM. now rewrite HM. }
        { rewrite <- (map_id b) at 1. apply map_ext_in. intros p Hp.
          rewrite Forall_forall in Hb. now rewrite Hb. }
    + rewrite !app_length. lia.
Qed.
