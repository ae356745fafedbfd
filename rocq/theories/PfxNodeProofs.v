(** Invariant of prefix nodes and what each operation does to it. *)
From Coq Require Import NArith ZArith List Bool Arith Lia.
From Coq Require Import ZifyBool ZifyNat ZifyN.
From Verif Require Import Base PfxNodeModel PfxNodeSpec.
Import ListNotations.
Local Open Scope N_scope.

(** ** Counting *)

Definition uses (s : nat) (l : list nat) : nat := length (filter (fun x => (x =? s)%nat) l).

Lemma uses_cons : forall s x l, uses s (x :: l) = ((if (x =? s)%nat then 1 else 0) + uses s l)%nat.
Proof. intros s x l. unfold uses. cbn. destruct (x =? s)%nat; reflexivity. Qed.
Lemma uses_app : forall s l l', uses s (l ++ l') = (uses s l + uses s l')%nat.
Proof. intros s l l'. unfold uses. now rewrite filter_app, app_length. Qed.
Lemma uses_in : forall s l, In s l <-> (1 <= uses s l)%nat.
Proof.
  intros s l. induction l as [|x l IH]; [cbn; lia|]. rewrite uses_cons. cbn [In].
  destruct (Nat.eqb_spec x s); [|rewrite IH]; intuition; lia.
Qed.
Lemma uses_le : forall s l, (uses s l <= length l)%nat.
Proof. intros s l. induction l as [|x l IH]; [cbn; lia|]. rewrite uses_cons. cbn. destruct (_ =? _)%nat; lia. Qed.

Definition cnt (f : nat -> bool) (n : nat) : nat := length (filter f (seq 0 n)).

Lemma cnt_S : forall f n, cnt f (S n) = (cnt f n + if f n then 1 else 0)%nat.
Proof.
  intros f n. unfold cnt. rewrite seq_S, filter_app, app_length. cbn. destruct (f n); reflexivity.
Qed.
Lemma cnt_ext : forall f h n, (forall i, (i < n)%nat -> f i = h i) -> cnt f n = cnt h n.
Proof.
  intros f h. induction n as [|n IH]; intros H; [reflexivity|]. rewrite !cnt_S, IH, H by (intros; try apply H; lia).
  reflexivity.
Qed.
Lemma cnt_upd : forall f s b n, (s < n)%nat -> f s = negb b ->
  cnt (upd f s b) n = (if b then S (cnt f n) else (cnt f n - 1)%nat) /\ (b = false -> (1 <= cnt f n)%nat).
Proof.
  intros f s b. induction n as [|n IH]; intros Hs Hf; [lia|]. rewrite !cnt_S. unfold upd at 2.
  destruct (Nat.eqb_spec n s) as [->|Hne].
  - rewrite (cnt_ext (upd f s b) f). 2:{ intros i Hi. unfold upd. replace (i =? s)%nat with false by lia. reflexivity. }
    rewrite Hf. destruct b; cbn; split; try discriminate; lia.
  - destruct IH as [IH1 IH2]; [lia|assumption|]. rewrite IH1. destruct b; split; try discriminate; lia.
Qed.
Lemma cnt_nodup : forall f n l, NoDup l -> (forall x, In x l -> (x < n)%nat /\ f x = true) -> (length l <= cnt f n)%nat.
Proof.
  intros f n l Hd H. unfold cnt. apply NoDup_incl_length; [assumption|]. intros x Hx. apply filter_In.
  destruct (H x Hx). split; [apply in_seq; lia|assumption].
Qed.
Lemma cnt_le : forall f n, (cnt f n <= n)%nat.
Proof. intros f n. induction n; [cbn; lia|]. rewrite cnt_S. destruct (f n); lia. Qed.
Lemma cnt_below : forall f t n, (forall i, f i = true -> (i < t)%nat) -> (cnt f n <= t)%nat.
Proof.
  intros f t. induction n as [|n IH]; intros H; [cbn; lia|]. rewrite cnt_S. destruct (f n) eqn:E; [|specialize (IH H); lia].
  specialize (H n E). pose proof (cnt_le f n). lia.
Qed.

(** ** The invariant *)

Section Geom.
Context (c : codec) (g : geom) (Hc : codec_ok c) (Hg : geom_ok g).

Definition refs (nd : node) (s : nat) : N := fst (n_slot nd s).
Definition pay (nd : node) (s : nat) : N * N := snd (n_slot nd s).

(** [ex]: counts are exact; otherwise they are large enough. *)
Record core (ex : bool) (nd : node) (l : list nat) : Prop := {
  k_bits : forall i, n_set nd i = true -> (i < g_bits g)%nat;
  k_used : n_used nd = cnt (n_set nd) (g_bits g);
  k_tail : forall i, n_set nd i = true -> (i < n_tail nd)%nat;
  k_last : n_tail nd = 0%nat \/ n_set nd (n_tail nd - 1)%nat = true;
  k_in : forall s, In s l -> n_set nd s = true;
  k_ref : forall s, n_set nd s = true -> N.of_nat (uses s l) <= refs nd s <= 65535;
  k_ex : ex = true -> forall s, n_set nd s = true -> refs nd s = N.of_nat (uses s l) /\ (1 <= uses s l)%nat
}.

Lemma core_same : forall ex nd nd' l l', core ex nd l ->
  (forall i, n_slot nd' i = n_slot nd i) -> (forall i, n_set nd' i = n_set nd i) ->
  n_used nd' = n_used nd -> n_tail nd' = n_tail nd -> (forall s, uses s l' = uses s l) -> core ex nd' l'.
Proof.
  intros ex nd nd' l l' [H1 H2 H3 H4 H5 H6 H7] E1 E2 E3 E4 E5. constructor; intros; rewrite ?E1, ?E2, ?E3, ?E4, ?E5 in *; auto.
  - rewrite H2. apply cnt_ext. intros i _. now rewrite E2.
  - apply H5, uses_in. rewrite <- E5. now apply uses_in.
  - unfold refs. rewrite E1. apply H6. assumption.
  - unfold refs. rewrite E1. apply H7; assumption.
Qed.

Lemma used_tail : forall ex nd l, core ex nd l -> (n_used nd <= n_tail nd)%nat.
Proof. intros ex nd l H. rewrite (k_used _ _ _ H). apply cnt_below, (k_tail _ _ _ H). Qed.
Lemma used_bits : forall ex nd l, core ex nd l -> (n_used nd <= g_bits g)%nat.
Proof. intros ex nd l H. rewrite (k_used _ _ _ H). apply cnt_le. Qed.
Lemma tail_bits : forall ex nd l, core ex nd l -> (n_tail nd <= g_bits g)%nat.
Proof. intros ex nd l H. destruct (k_last _ _ _ H) as [E|E]; [lia|]. apply (k_bits _ _ _ H) in E. lia. Qed.

Lemma find_seq : forall f n s, find f (seq 0 n) = Some s ->
  (s < n)%nat /\ f s = true /\ (forall i, (i < s)%nat -> f i = false).
Proof.
  intros f n s. enough (HH : forall a, find f (seq a n) = Some s ->
    (a <= s < a + n)%nat /\ f s = true /\ (forall i, (a <= i < s)%nat -> f i = false)).
  { intros H. destruct (HH 0%nat H) as [H1 [H2 H3]]. split; [lia|]. split; [assumption|]. intros i Hi. apply H3. lia. }
  induction n as [|n IH]; intros a H; cbn in H; [discriminate|]. destruct (f a) eqn:E.
  - injection H as <-. split; [lia|]. split; [assumption|]. intros i Hi. lia.
  - destruct (IH _ H) as [H1 [H2 H3]]. split; [lia|]. split; [assumption|]. intros i Hi.
    destruct (Nat.eq_dec i a) as [->|]; [assumption|]. apply H3. lia.
Qed.

Lemma next_reset_some : forall ex nd l, core ex nd l -> (n_tail nd < g_bits g)%nat ->
  exists s, next_reset g nd = Some s /\ n_set nd s = false /\ (s < g_bits g)%nat /\ (s <= n_tail nd)%nat.
Proof.
  intros ex nd l H Ht. unfold next_reset.
  assert (Hr : n_set nd (n_tail nd) = false).
  { destruct (n_set nd (n_tail nd)) eqn:E; [|reflexivity]. apply (k_tail _ _ _ H) in E. lia. }
  destruct (find _ _) as [s|] eqn:E.
  - apply find_seq in E. destruct E as [E1 [E2 E3]]. exists s. split; [reflexivity|].
    split; [now apply negb_true_iff|]. split; [assumption|]. destruct (Nat.leb_spec s (n_tail nd)); [assumption|].
    specialize (E3 (n_tail nd) ltac:(lia)). rewrite Hr in E3. discriminate.
  - exfalso. pose proof (find_none _ _ E (n_tail nd)) as HN. cbv beta in HN. rewrite Hr in HN.
    assert (Hin : In (n_tail nd) (seq 0 (g_bits g))) by (apply in_seq; lia). specialize (HN Hin). discriminate.
Qed.

(** Taking a free slot for one suffix. *)
Lemma take_ok : forall ex nd l s x nd', core ex nd l -> n_set nd s = false -> (s < g_bits g)%nat ->
  (forall i, n_slot nd' i = upd (n_slot nd) s (1, x) i) ->
  (forall i, n_set nd' i = upd (n_set nd) s true i) ->
  n_used nd' = S (n_used nd) -> n_tail nd' = Nat.max (S s) (n_tail nd) -> core ex nd' (s :: l).
Proof.
  intros ex nd l s x nd' K Hs Hb E1 E2 E3 E4.
  assert (Hl : uses s l = 0%nat).
  { destruct (uses s l) eqn:E; [reflexivity|]. assert (In s l) by (apply uses_in; lia).
    apply (k_in _ _ _ K) in H. congruence. }
  assert (HR : forall i, refs nd' i = if (i =? s)%nat then 1 else refs nd i).
  { intros i. unfold refs. rewrite E1. unfold upd. destruct (i =? s)%nat; reflexivity. }
  assert (HS : forall i, n_set nd' i = if (i =? s)%nat then true else n_set nd i) by (intros; now rewrite E2).
  pose proof K as [H1 H2 H3 H4 H5 H6 H7]. constructor.
  - intros i. rewrite HS. destruct (Nat.eqb_spec i s); [intros; lia|apply H1].
  - rewrite E3, H2. rewrite (cnt_ext (n_set nd') (upd (n_set nd) s true)) by (intros; apply E2).
    destruct (cnt_upd (n_set nd) s true (g_bits g) Hb Hs) as [E _]. now rewrite E.
  - intros i. rewrite HS, E4. destruct (Nat.eqb_spec i s); [intros; lia|]. intros Hi. apply H3 in Hi. lia.
  - right. rewrite HS, E4. destruct (Nat.eqb_spec (Nat.max (S s) (n_tail nd) - 1) s); [reflexivity|].
    destruct H4 as [H4|H4]; [lia|]. replace (Nat.max (S s) (n_tail nd)) with (n_tail nd) by lia. assumption.
  - intros i Hi. rewrite HS. destruct (Nat.eqb_spec i s); [reflexivity|]. destruct Hi as [Hi|Hi]; [congruence|auto].
  - intros i Hi. rewrite HS in Hi. rewrite HR, uses_cons. destruct (Nat.eqb_spec i s) as [Ei|Hne]; [subst i|].
    + rewrite Nat.eqb_refl, Hl. lia.
    + replace (s =? i)%nat with false by lia. apply H6. assumption.
  - intros Hex i Hi. rewrite HS in Hi. rewrite HR, uses_cons. destruct (Nat.eqb_spec i s) as [Ei|Hne]; [subst i|].
    + rewrite Nat.eqb_refl, Hl. lia.
    + replace (s =? i)%nat with false by lia. apply H7; assumption.
Qed.

(** One more user of a slot whose count is exact. *)
Lemma ref_ok : forall ex nd l s, core ex nd l -> n_set nd s = true -> refs nd s = N.of_nat (uses s l) ->
  N.of_nat (length l) < 65535 -> core ex (ref nd s) (s :: l) /\ refs (ref nd s) s = N.of_nat (uses s (s :: l)).
Proof.
  intros ex nd l s K Hs Hx Hl. pose proof K as [H1 H2 H3 H4 H5 H6 H7]. pose proof (uses_le s l) as Hul.
  assert (HR : forall i, refs (ref nd s) i = if (i =? s)%nat then refs nd s + 1 else refs nd i).
  { intros i. unfold refs, ref in *. destruct (n_slot nd s) as [r x] eqn:E. cbn [set_slot n_slot fst] in *. unfold upd.
    destruct (Nat.eqb_spec i s) as [Ei|Hne]; [subst i|]; [|reflexivity]. cbn [fst]. rewrite N.mod_small by lia. lia. }
  assert (HS : forall i, n_set (ref nd s) i = n_set nd i) by (intros; unfold ref; destruct (n_slot nd s); reflexivity).
  assert (HU : n_used (ref nd s) = n_used nd) by (unfold ref; destruct (n_slot nd s); reflexivity).
  assert (HT : n_tail (ref nd s) = n_tail nd) by (unfold ref; destruct (n_slot nd s); reflexivity).
  split.
  2:{ rewrite HR, uses_cons, Nat.eqb_refl. lia. }
  constructor; intros; rewrite ?HS, ?HU, ?HT in *; auto.
  - rewrite H2. apply cnt_ext. intros i _. now rewrite HS.
  - destruct H as [<-|H]; auto.
  - rewrite HR, uses_cons. destruct (Nat.eqb_spec s0 s) as [Ei|Hne]; [subst s0|].
    + rewrite Nat.eqb_refl. lia.
    + replace (s =? s0)%nat with false by lia. apply H6. assumption.
  - rewrite HR, uses_cons. destruct (Nat.eqb_spec s0 s) as [Ei|Hne]; [subst s0|].
    + rewrite Nat.eqb_refl. lia.
    + replace (s =? s0)%nat with false by lia. apply H7; assumption.
Qed.

Lemma prev_set_ok : forall f s, (forall i, f i = true -> (i < s)%nat) ->
  (forall i, f i = true -> (i < prev_set f s)%nat) /\ (prev_set f s <= s)%nat /\
  (prev_set f s = 0%nat \/ f (prev_set f s - 1)%nat = true).
Proof.
  intros f s. unfold prev_set. induction s as [|s IH]; intros H.
  - cbn. split; [intros i Hi; now apply H in Hi|]. split; [lia|now left].
  - rewrite seq_S, rev_app_distr. cbn [rev app find Nat.add]. destruct (f s) eqn:E.
    + split; [assumption|]. split; [lia|]. right. now rewrite Nat.sub_succ, Nat.sub_0_r.
    + destruct IH as [I1 [I2 I3]]; [|split; [assumption|split; [lia|assumption]]].
      intros i Hi. specialize (H i Hi). destruct (Nat.eq_dec i s); [congruence|lia].
Qed.

(** One user less. *)
Lemma deref_ok : forall ex nd l s, core ex nd (s :: l) ->
  core ex (deref nd s) l /\ (n_tail (deref nd s) <= n_tail nd)%nat /\
  (forall i, pay (deref nd s) i = pay nd i) /\ n_sufs (deref nd s) = n_sufs nd /\
  (forall i, i <> s -> refs (deref nd s) i = refs nd i /\ n_set (deref nd s) i = n_set nd i).
Proof.
  intros ex nd l s K. pose proof K as [H1 H2 H3 H4 H5 H6 H7].
  assert (Hs : n_set nd s = true) by (apply H5; now left).
  pose proof (H6 s Hs) as Hr. rewrite uses_cons, Nat.eqb_refl in Hr.
  unfold deref. destruct (n_slot nd s) as [r x] eqn:E.
  assert (Hr' : refs nd s = r) by (unfold refs; now rewrite E). rewrite Hr' in Hr.
  assert (Er : (r + 65535) mod 65536 = r - 1).
  { replace (r + 65535) with (r - 1 + 1 * 65536) by lia. rewrite N.mod_add by lia. apply N.mod_small. lia. }
  rewrite Er. clear Er.
  assert (HP : forall i, snd (upd (n_slot nd) s (r - 1, x) i) = pay nd i).
  { intros i. unfold upd, pay. destruct (Nat.eqb_spec i s) as [Ei|Hne]; [subst i|]; [now rewrite E|reflexivity]. }
  assert (HR : forall i, fst (upd (n_slot nd) s (r - 1, x) i) = if (i =? s)%nat then refs nd s - 1 else refs nd i).
  { intros i. unfold upd, refs. destruct (Nat.eqb_spec i s) as [Ei|Hne]; [subst i|]; [rewrite E; cbn; lia|reflexivity]. }
  destruct (r - 1 =? 0) eqn:Ez; cbn [set_slot n_sufs n_slot n_set n_used n_tail].
  - assert (Hu : uses s l = 0%nat) by lia.
    assert (HS : forall i, upd (n_set nd) s false i = if (i =? s)%nat then false else n_set nd i) by reflexivity.
    assert (HT : let t := if (S s =? n_tail nd)%nat then prev_set (upd (n_set nd) s false) s else n_tail nd in
      (forall i, upd (n_set nd) s false i = true -> (i < t)%nat) /\ (t <= n_tail nd)%nat /\
      (t = 0%nat \/ upd (n_set nd) s false (t - 1)%nat = true)).
    { destruct (Nat.eqb_spec (S s) (n_tail nd)) as [Et|Et].
      - destruct (prev_set_ok (upd (n_set nd) s false) s) as [P1 [P2 P3]].
        + intros i. rewrite HS. destruct (Nat.eqb_spec i s); [discriminate|]. intros Hi. apply H3 in Hi. lia.
        + cbv zeta. split; [assumption|]. split; [lia|assumption].
      - cbv zeta. split; [|split; [lia|]].
        + intros i. rewrite HS. destruct (Nat.eqb_spec i s); [discriminate|]. apply H3.
        + destruct H4 as [H4|H4]; [now left|right]. rewrite HS.
          destruct (Nat.eqb_spec (n_tail nd - 1) s); [|assumption]. apply H3 in Hs. lia. }
    cbv zeta in HT. destruct HT as [T1 [T2 T3]]. split; [|split; [exact T2|]].
    + constructor; cbn [n_sufs n_slot n_set n_used n_tail].
      * intros i. rewrite HS. destruct (i =? s)%nat; [discriminate|apply H1].
      * destruct (cnt_upd (n_set nd) s false (g_bits g) (H1 _ Hs)) as [E1 _]; [rewrite Hs; reflexivity|].
        rewrite E1, H2. reflexivity.
      * exact T1.
      * exact T3.
      * intros i Hi. rewrite HS. destruct (Nat.eqb_spec i s) as [Ei|Hne]; [subst i|]; [apply uses_in in Hi; lia|]. apply H5. now right.
      * intros i. rewrite HS. unfold refs, set_slot. cbn [n_slot]. rewrite HR. destruct (Nat.eqb_spec i s); [discriminate|].
        intros Hi. specialize (H6 i Hi). rewrite uses_cons in H6. replace (s =? i)%nat with false in H6 by lia. assumption.
      * intros Hex i. rewrite HS. unfold refs, set_slot. cbn [n_slot]. rewrite HR. destruct (Nat.eqb_spec i s); [discriminate|].
        intros Hi. specialize (H7 Hex i Hi). rewrite uses_cons in H7. replace (s =? i)%nat with false in H7 by lia. assumption.
    + split; [intros i; apply HP|]. split; [reflexivity|]. intros i Hi. unfold refs, set_slot. cbn [n_slot n_set]. rewrite HR, HS.
      replace (i =? s)%nat with false by lia. split; reflexivity.
  - split; [|split; [lia|]].
    + constructor; cbn [n_sufs n_slot n_set n_used n_tail]; auto.
      * intros i Hi. apply H5. now right.
      * intros i Hi. unfold refs, set_slot. cbn [n_slot]. rewrite HR. specialize (H6 i Hi). rewrite uses_cons in H6.
        destruct (Nat.eqb_spec i s) as [Ei|Hne]; [subst i|]; [rewrite Nat.eqb_refl in H6; lia|]. replace (s =? i)%nat with false in H6 by lia. assumption.
      * intros Hex i Hi. unfold refs, set_slot. cbn [n_slot]. rewrite HR. specialize (H7 Hex i Hi). rewrite uses_cons in H7.
        destruct (Nat.eqb_spec i s) as [Ei|Hne]; [subst i|]; [rewrite Nat.eqb_refl in H7; lia|]. replace (s =? i)%nat with false in H7 by lia. assumption.
    + split; [intros i; apply HP|]. split; [reflexivity|]. intros i Hi. unfold refs, set_slot. cbn [n_slot n_set]. rewrite HR.
      replace (i =? s)%nat with false by lia. split; reflexivity.
Qed.

(** ** Entries *)

Definition dec (p : nat -> N * N) (x : nat * (N * N)) : Z * Z :=
  (kj c (fst (p (fst x))) (fst (snd x)), vj c (snd (p (fst x))) (snd (snd x))).
Definition suf (k v : Z) : N * N := (ks c k, vs c v).

Lemma entries_dec : forall nd, entries c nd = map (dec (pay nd)) (n_sufs nd).
Proof. reflexivity. Qed.

Lemma entries_length : forall nd, length (entries c nd) = count nd.
Proof. intros nd. unfold entries. apply map_length. Qed.

Lemma dec_ext : forall p q l, (forall s, In s (map fst l) -> p s = q s) -> map (dec p) l = map (dec q) l.
Proof.
  intros p q l H. apply map_ext_in. intros x Hx. unfold dec. rewrite (H (fst x)) by (now apply in_map). reflexivity.
Qed.

Lemma dec_suf : forall p s k v, p s = (kp c k, vp c v) -> dec p (s, suf k v) = (k, v).
Proof.
  intros p s k v H. destruct Hc as [H1 H2]. unfold dec, suf. cbn [fst snd]. rewrite H. cbn [fst snd]. now rewrite H1, H2.
Qed.

Lemma uses_mid : forall j a s b, uses j (a ++ s :: b) = uses j (s :: a ++ b).
Proof. intros j a s b. rewrite uses_app, !uses_cons, uses_app. lia. Qed.

Lemma ref_same : forall nd s, n_sufs (ref nd s) = n_sufs nd /\ n_set (ref nd s) = n_set nd /\
  n_used (ref nd s) = n_used nd /\ n_tail (ref nd s) = n_tail nd /\
  (forall i, pay (ref nd s) i = pay nd i) /\
  (forall i, n_slot (ref nd s) i = upd (n_slot nd) s ((fst (n_slot nd s) + 1) mod 65536, snd (n_slot nd s)) i).
Proof.
  intros nd s. unfold ref, pay. destruct (n_slot nd s) as [r x] eqn:E. cbn.
  do 4 (split; [reflexivity|]). split; [|reflexivity]. intros i. unfold upd.
  destruct (Nat.eqb_spec i s) as [Ei|]; [subst i; now rewrite E|reflexivity].
Qed.

Lemma place_new : forall ex nd l1 l2 mid k v, core ex nd (map fst (l1 ++ l2)) ->
  n_sufs nd = l1 ++ mid :: l2 -> (n_tail nd < g_bits g)%nat ->
  exists s nd1, add_prefix c g nd k v = Ok (s, nd1) /\ snd (n_slot nd1 s) = (kp c k, vp c v) /\
    let nd2 := write_suffix c nd1 (length l1) s k v in
    core ex nd2 (map fst (l1 ++ (s, suf k v) :: l2)) /\ n_sufs nd2 = l1 ++ (s, suf k v) :: l2 /\
    pay nd2 s = (kp c k, vp c v) /\ (forall j, j <> s -> pay nd2 j = pay nd j) /\
    ~ In s (map fst (l1 ++ l2)) /\ (n_tail nd2 <= S (n_tail nd))%nat /\ refs nd2 s = 1.
Proof.
  intros ex nd l1 l2 mid k v K HS Ht.
  destruct (next_reset_some _ _ _ K Ht) as [s [E [Hs [Hb Hst]]]].
  unfold add_prefix, alloc. rewrite E. cbn [bind]. eexists s, _. split; [reflexivity|].
  split; [cbn; unfold upd; now rewrite Nat.eqb_refl|]. cbv zeta.
  match goal with |- context [write_suffix c ?n _ _ _ _] => set (nd1 := n) end. unfold write_suffix.
  assert (EL : firstn (length l1) (n_sufs nd1) ++ (s, (ks c k, vs c v)) :: skipn (S (length l1)) (n_sufs nd1) =
    l1 ++ (s, suf k v) :: l2).
  { unfold nd1. cbn [set_slot n_sufs]. rewrite HS. rewrite firstn_app, Nat.sub_diag, firstn_all2 by lia. cbn [firstn].
    rewrite app_nil_r. f_equal. unfold suf. f_equal. change (mid :: l2) with ([mid] ++ l2). rewrite app_assoc.
    rewrite skipn_app, skipn_all2 by (rewrite app_length; cbn; lia). rewrite app_length. cbn [length].
    replace (S (length l1) - (length l1 + 1))%nat with 0%nat by lia. reflexivity. }
  rewrite EL. set (nd2 := set_sufs nd1 _). destruct (ref_same nd2 s) as [R1 [R2 [R3 [R4 [R5 R6]]]]].
  assert (HP : forall j, pay nd2 j = if (j =? s)%nat then (kp c k, vp c v) else pay nd j).
  { intros j. unfold pay, nd2, nd1, set_sufs, set_slot. cbn [n_slot]. unfold upd. destruct (j =? s)%nat; reflexivity. }
  assert (HSL : forall i, n_slot (ref nd2 s) i = upd (n_slot nd) s (1, (kp c k, vp c v)) i).
  { intros i. rewrite R6. unfold nd2, nd1, set_sufs, set_slot. cbn [n_slot]. unfold upd. rewrite Nat.eqb_refl.
    destruct (i =? s)%nat; reflexivity. }
  assert (HSE : forall i, n_set (ref nd2 s) i = upd (n_set nd) s true i).
  { intros i. rewrite R2. reflexivity. }
  assert (HK : core ex (ref nd2 s) (s :: map fst (l1 ++ l2))).
  { apply (take_ok ex nd _ s (kp c k, vp c v)); auto. }
  split; [|split; [|split; [|split; [|split; [|split]]]]].
  - eapply core_same; [exact HK| | | | |]; auto. intros j. rewrite map_app. cbn [map fst]. rewrite map_app.
    apply uses_mid.
  - rewrite R1. reflexivity.
  - rewrite R5, HP, Nat.eqb_refl. reflexivity.
  - intros j Hj. rewrite R5, HP. replace (j =? s)%nat with false by lia. reflexivity.
  - intros Hin. apply (k_in _ _ _ K) in Hin. congruence.
  - rewrite R4. unfold nd2, nd1, set_sufs, set_slot. cbn [n_tail]. lia.
  - unfold refs. rewrite HSL. unfold upd. now rewrite Nat.eqb_refl.
Qed.

Lemma place_old : forall ex nd l1 l2 mid s k v, core ex nd (map fst (l1 ++ l2)) ->
  n_sufs nd = l1 ++ mid :: l2 -> n_set nd s = true -> refs nd s = N.of_nat (uses s (map fst (l1 ++ l2))) ->
  N.of_nat (length (l1 ++ l2)) < 65535 ->
  let nd2 := write_suffix c nd (length l1) s k v in
  core ex nd2 (map fst (l1 ++ (s, suf k v) :: l2)) /\ n_sufs nd2 = l1 ++ (s, suf k v) :: l2 /\
  (forall j, pay nd2 j = pay nd j) /\ n_tail nd2 = n_tail nd /\
  refs nd2 s = N.of_nat (uses s (map fst (l1 ++ (s, suf k v) :: l2))) /\
  (forall j, n_set nd2 j = n_set nd j).
Proof.
  intros ex nd l1 l2 mid s k v K HS Hs Hr Hl nd2. unfold nd2, write_suffix.
  assert (EL : firstn (length l1) (n_sufs nd) ++ (s, (ks c k, vs c v)) :: skipn (S (length l1)) (n_sufs nd) =
    l1 ++ (s, suf k v) :: l2).
  { rewrite HS. rewrite firstn_app, Nat.sub_diag, firstn_all2 by lia. cbn [firstn].
    rewrite app_nil_r. f_equal. unfold suf. f_equal. change (mid :: l2) with ([mid] ++ l2). rewrite app_assoc.
    rewrite skipn_app, skipn_all2 by (rewrite app_length; cbn; lia). rewrite app_length. cbn [length].
    replace (S (length l1) - (length l1 + 1))%nat with 0%nat by lia. reflexivity. }
  rewrite EL. set (nd1 := set_sufs nd _). destruct (ref_same nd1 s) as [R1 [R2 [R3 [R4 [R5 R6]]]]].
  assert (K1 : core ex nd1 (map fst (l1 ++ l2))) by (eapply core_same; [exact K|..]; reflexivity).
  assert (HU : forall j, uses j (map fst (l1 ++ (s, suf k v) :: l2)) = uses j (s :: map fst (l1 ++ l2))).
  { intros j. rewrite map_app. cbn [map fst]. rewrite map_app. apply uses_mid. }
  destruct (ref_ok ex nd1 _ s K1 Hs Hr) as [K2 E2]; [rewrite map_length; assumption|].
  split; [|split; [|split; [|split; [|split]]]].
  - eapply core_same; [exact K2| | | | |]; auto.
  - rewrite R1. reflexivity.
  - intros j. rewrite R5. reflexivity.
  - rewrite R4. reflexivity.
  - rewrite HU. exact E2.
  - intros j. rewrite R2. reflexivity.
Qed.

(** ** The node *)

Record inv (ex : bool) (nd : node) : Prop := {
  i_core : core ex nd (map fst (n_sufs nd));
  i_fits : g_base g + N.of_nat (count nd) * g_ssz g + N.of_nat (n_tail nd) * g_psz g <= g_data g
}.

Lemma new_inv : forall ex, inv ex new_node.
Proof.
  intros ex. destruct Hg as [G1 [G2 [G3 [G4 G5]]]]. constructor.
  - constructor; cbn; try discriminate; auto; try contradiction. clear. unfold cnt. induction (seq 0 (g_bits g)); auto.
  - unfold count, new_node. cbn. lia.
Qed.

Lemma room_mul : forall a b x y z d, x + a * y + b * z <= d -> 0 < y -> a + x <= d.
Proof. intros a b x y z d H Hy. nia. Qed.

Lemma inv_count : forall ex nd, inv ex nd -> N.of_nat (count nd) < 65532.
Proof.
  intros ex nd [_ H]. destruct Hg as [G1 [G2 [G3 [G4 _]]]]. apply room_mul in H; lia.
Qed.

Lemma has_room_iff : forall ex nd n, inv ex nd -> has_room g nd n = true ->
  g_base g + (N.of_nat (count nd) + N.of_nat n) * g_ssz g + (N.of_nat (n_tail nd) + 1) * g_psz g <= g_data g /\
  (n <> 0%nat -> (n_tail nd < g_bits g)%nat).
Proof.
  intros ex nd n [K F] H. destruct Hg as [G1 [G2 [G3 [G4 G5]]]]. unfold has_room, avail in H.
  rewrite !N.mul_add_distr_r. split; [lia|]. intros Hn. destruct (Nat.ltb_spec (n_tail nd) (g_bits g)); [assumption|exfalso].
  assert (N.of_nat (g_bits g) * g_psz g <= N.of_nat (n_tail nd) * g_psz g) by (apply N.mul_le_mono_r; lia).
  assert (1 * g_ssz g <= N.of_nat n * g_ssz g) by (apply N.mul_le_mono_r; lia).
  rewrite Nat2N.inj_succ, N.mul_succ_l in G5. lia.
Qed.

Lemma fits_of : forall nd n t, (n_sufs nd = n_sufs nd) -> count nd = n -> (n_tail nd <= t)%nat ->
  g_base g + N.of_nat n * g_ssz g + N.of_nat t * g_psz g <= g_data g ->
  g_base g + N.of_nat (count nd) * g_ssz g + N.of_nat (n_tail nd) * g_psz g <= g_data g.
Proof.
  intros nd n t _ <- Ht H. assert (N.of_nat (n_tail nd) * g_psz g <= N.of_nat t * g_psz g) by (apply N.mul_le_mono_r; lia). lia.
Qed.

Lemma checked_ok : forall nd,
  g_base g + N.of_nat (count nd) * g_ssz g + N.of_nat (n_tail nd) * g_psz g <= g_data g -> checked g nd = Ok nd.
Proof. intros nd H. unfold checked, fits. replace (_ <=? _) with true by lia. reflexivity. Qed.

Lemma mid_ext : forall p q l1 l2 s k v, (forall j, j <> s -> p j = q j) -> ~ In s (map fst (l1 ++ l2)) ->
  p s = (kp c k, vp c v) ->
  map (dec p) (l1 ++ (s, suf k v) :: l2) = map (dec q) l1 ++ (k, v) :: map (dec q) l2.
Proof.
  intros p q l1 l2 s k v Hp Hn Hs. rewrite map_app. cbn [map]. rewrite dec_suf by assumption.
  rewrite map_app, in_app_iff in Hn. rewrite (dec_ext p q l1), (dec_ext p q l2); [reflexivity| |];
    intros j Hj; apply Hp; intros ->; tauto.
Qed.

Lemma insert_ok : forall ex nd i k v, inv ex nd -> (i <= count nd)%nat ->
  (has_room g nd 1 = false /\ insert c g nd i k v = Ok (nd, false)) \/
  (exists nd', insert c g nd i k v = Ok (nd', true) /\ inv ex nd' /\
     entries c nd' = firstn i (entries c nd) ++ (k, v) :: skipn i (entries c nd)).
Proof.
  intros ex nd i k v I Hi. unfold insert. destruct (has_room g nd 1) eqn:Er; cbn [negb]; [right|left; split; reflexivity].
  replace (count nd <? i)%nat with false by lia.
  destruct (has_room_iff ex nd 1 I Er) as [HR Ht]. specialize (Ht ltac:(lia)). pose proof I as [K F].
  set (l1 := firstn i (n_sufs nd)). set (l2 := skipn i (n_sufs nd)).
  assert (HL : n_sufs nd = l1 ++ l2) by (symmetry; apply firstn_skipn).
  assert (H1 : length l1 = i) by (apply firstn_length_le; exact Hi).
  destruct (place_new ex (open_suffix nd i) l1 l2 (0%nat, (0, 0)) k v) as [s [nd1 [E [_ H]]]].
  - rewrite <- HL. eapply core_same; [exact K|..]; reflexivity.
  - reflexivity.
  - exact Ht.
  - rewrite H1 in H. cbv zeta in H. destruct H as [K2 [S2 [P2 [Q2 [N2 [T2 _]]]]]]. rewrite E. cbn [bind].
    set (nd2 := write_suffix c nd1 i s k v) in *.
    assert (HC : count nd2 = S (count nd)).
    { unfold count. rewrite S2, HL, !app_length. cbn. lia. }
    assert (F2 : g_base g + N.of_nat (count nd2) * g_ssz g + N.of_nat (n_tail nd2) * g_psz g <= g_data g).
    { apply (fits_of nd2 (S (count nd)) (S (n_tail nd))); auto. rewrite !Nat2N.inj_succ, <- !N.add_1_r. exact HR. }
    rewrite checked_ok by exact F2. cbn [bind]. exists nd2. split; [reflexivity|]. split; [constructor|].
    + now rewrite S2.
    + exact F2.
    + rewrite !entries_dec, S2, (mid_ext (pay nd2) (pay nd)); auto.
      unfold l1, l2. now rewrite <- firstn_map, <- skipn_map.
Qed.

(** Putting another entry in place of one. *)
Lemma replace_split : forall (A : Type) (l : list A) i x, nth_error l i = Some x ->
  l = firstn i l ++ x :: skipn (S i) l /\ length (firstn i l) = i.
Proof.
  intros A l i x H. assert (Hi : (i < length l)%nat) by (apply nth_error_Some; congruence).
  split; [|apply firstn_length_le; lia]. revert l x H Hi. induction i as [|i IH]; intros [|a l] x H Hi; cbn in *; try discriminate.
  - now injection H as ->.
  - f_equal. apply IH; [assumption|lia].
Qed.

Lemma core_drop : forall ex nd (l1 : list (nat * (N * N))) x l2, core ex nd (map fst (l1 ++ x :: l2)) -> core ex nd (fst x :: map fst (l1 ++ l2)).
Proof.
  intros ex nd l1 x l2 K. eapply core_same; [exact K|..]; try reflexivity. intros s.
  rewrite !map_app. cbn [map]. symmetry. apply uses_mid.
Qed.

(** Forgetting a user without taking it off the count. *)
Lemma core_leak : forall nd ex x l, core ex nd (x :: l) -> core false nd l.
Proof.
  intros nd ex x l [H1 H2 H3 H4 H5 H6 H7]. constructor; auto.
  - intros s Hs. apply H5. now right.
  - intros s Hs. specialize (H6 s Hs). rewrite uses_cons in H6. lia.
  - discriminate.
Qed.

Lemma remove_ok : forall ex nd i, inv ex nd -> (i < count nd)%nat ->
  exists nd', remove nd i = Ok nd' /\ inv ex nd' /\
    entries c nd' = firstn i (entries c nd) ++ skipn (S i) (entries c nd) /\
    (forall j, pay nd' j = pay nd j) /\ n_sufs nd' = firstn i (n_sufs nd) ++ skipn (S i) (n_sufs nd) /\
    (forall j, (forall x, nth_error (n_sufs nd) i = Some x -> fst x <> j) -> refs nd' j = refs nd j /\ n_set nd' j = n_set nd j).
Proof.
  intros ex nd i [K F] Hi. unfold remove. destruct (nth_error (n_sufs nd) i) as [x|] eqn:E;
    [|apply nth_error_None in E; unfold count in Hi; lia].
  destruct (replace_split _ _ _ _ E) as [HL H1]. set (l1 := firstn i (n_sufs nd)) in *. set (l2 := skipn (S i) (n_sufs nd)) in *.
  rewrite HL in K. apply core_drop in K. destruct (deref_ok ex nd _ _ K) as [K1 [T1 [P1 [S1 R1]]]].
  eexists. split; [reflexivity|]. rewrite S1. fold l1 l2. split; [constructor|split; [|split; [|split]]].
  - cbn [set_sufs n_sufs]. eapply core_same; [exact K1|..]; reflexivity.
  - apply (fits_of _ (length (l1 ++ l2)) (n_tail nd)); auto. unfold count in F. rewrite HL in F. rewrite app_length in *. cbn [length] in F.
    assert (N.of_nat (length l1 + length l2) * g_ssz g <= N.of_nat (length l1 + S (length l2)) * g_ssz g) by (apply N.mul_le_mono_r; lia). lia.
  - rewrite !entries_dec. cbn [set_sufs n_sufs]. rewrite (dec_ext _ (pay nd)).
    2:{ intros s _. apply P1. }
    unfold l1, l2. now rewrite map_app, firstn_map, skipn_map.
  - exact P1.
  - reflexivity.
  - intros j Hj. apply R1. intros ->. now apply (Hj x).
Qed.

(** ** Compaction *)

(** What holds of the slots while slots are moved. *)
Record mid (ex : bool) (nd : node) (l : list nat) : Prop := {
  m_bits : forall i, n_set nd i = true -> (i < g_bits g)%nat;
  m_used : n_used nd = cnt (n_set nd) (g_bits g);
  m_in : forall s, In s l -> n_set nd s = true;
  m_ref : forall s, n_set nd s = true -> N.of_nat (uses s l) <= refs nd s <= 65535;
  m_ex : ex = true -> forall s, n_set nd s = true -> refs nd s = N.of_nat (uses s l) /\ (1 <= uses s l)%nat
}.

Definition redirect (from to : nat) (x : nat * (N * N)) : nat * (N * N) :=
  if (fst x =? from)%nat then (to, snd x) else x.

Lemma uses_redirect : forall from to l s, from <> to -> uses to (map fst l) = 0%nat ->
  uses s (map fst (map (redirect from to) l)) =
    if (s =? from)%nat then 0%nat else if (s =? to)%nat then uses from (map fst l) else uses s (map fst l).
Proof.
  intros from to l s Hne. induction l as [|x l IH]; intros H0; cbn [map] in *.
  - destruct (s =? from)%nat, (s =? to)%nat; reflexivity.
  - rewrite uses_cons in H0. rewrite !uses_cons, IH by lia. unfold redirect at 1.
    destruct (Nat.eqb_spec (fst x) from) as [E|E]; cbn [fst];
    destruct (Nat.eqb_spec (fst x) to) in H0; destruct (Nat.eqb_spec s from), (Nat.eqb_spec s to);
    repeat match goal with |- context [(?a =? ?b)%nat] => destruct (Nat.eqb_spec a b) end; try lia; subst; congruence.
Qed.

Lemma compact_loop_ok : forall ex l nd, mid ex nd (map fst (n_sufs nd)) -> Forall (fun i => (n_used nd <= i)%nat) l ->
  exists nd', compact_loop g l nd = Ok nd' /\ mid ex nd' (map fst (n_sufs nd')) /\
    length (n_sufs nd') = length (n_sufs nd) /\ entries c nd' = entries c nd /\ n_used nd' = n_used nd /\
    (forall i, (n_used nd <= i)%nat -> n_set nd' i = true -> n_set nd i = true /\ ~ In i l).
Proof.
  intros ex. induction l as [|from l IH]; intros nd M Hl; cbn [compact_loop].
  - exists nd. split; [reflexivity|]. split; [assumption|]. do 3 (split; [reflexivity|]). intros i _ Hi. split; [assumption|intros []].
  - inversion Hl as [|? ? Hf Hl']; subst. destruct (n_set nd from) eqn:Es.
    + pose proof M as [H1 H2 H3 H4 H5].
      assert (HR : exists to, next_reset g nd = Some to /\ n_set nd to = false /\ (to < n_used nd)%nat).
      { unfold next_reset. destruct (find _ _) as [to|] eqn:E.
        - apply find_seq in E. destruct E as [E1 [E2 E3]]. exists to. split; [reflexivity|].
          split; [now apply negb_true_iff|]. destruct (Nat.ltb_spec to (n_used nd)); [assumption|exfalso].
          assert (HC : (length (from :: seq 0 (n_used nd)) <= cnt (n_set nd) (g_bits g))%nat).
          { apply cnt_nodup.
            - constructor; [rewrite in_seq; lia|apply seq_NoDup].
            - intros x [<-|Hx]; [split; [now apply H1|assumption]|]. apply in_seq in Hx.
              split; [lia|]. specialize (E3 x ltac:(lia)). now apply negb_false_iff. }
          cbn [length] in HC. rewrite seq_length in HC. lia.
        - exfalso. assert (HC : (g_bits g <= cnt (n_set nd) (g_bits g))%nat).
          { rewrite <- (seq_length (g_bits g) 0) at 1. apply cnt_nodup; [apply seq_NoDup|]. intros x Hx. apply in_seq in Hx as Hx'. split; [lia|].
            apply (find_none _ _ E) in Hx. now apply negb_false_iff. }
          pose proof (H1 from Es). lia. }
      destruct HR as [to [E [Et Hto]]]. rewrite E.
      assert (Hne : from <> to) by congruence.
      assert (Hbt : (to < g_bits g)%nat) by (pose proof (cnt_le (n_set nd) (g_bits g)); lia).
      assert (Hut : uses to (map fst (n_sufs nd)) = 0%nat).
      { destruct (uses to (map fst (n_sufs nd))) eqn:Eu; [reflexivity|].
        assert (HI : In to (map fst (n_sufs nd))) by (apply uses_in; lia). apply H3 in HI. congruence. }
      match goal with |- context [compact_loop g l ?n] => set (nd1 := n) end.
      assert (HS : forall i, n_set nd1 i = if (i =? to)%nat then true else if (i =? from)%nat then false else n_set nd i).
      { intros i. unfold nd1. cbn [n_set]. reflexivity. }
      assert (HSuf : n_sufs nd1 = map (redirect from to) (n_sufs nd)) by reflexivity.
      assert (HP : forall i, n_slot nd1 i = if (i =? to)%nat then n_slot nd from else n_slot nd i) by reflexivity.
      assert (HU : forall s, uses s (map fst (n_sufs nd1)) = if (s =? from)%nat then 0%nat else if (s =? to)%nat
        then uses from (map fst (n_sufs nd)) else uses s (map fst (n_sufs nd))).
      { intros s. rewrite HSuf. now apply uses_redirect. }
      assert (HRf : forall i, refs nd1 i = if (i =? to)%nat then refs nd from else refs nd i).
      { intros i. unfold refs. rewrite HP. destruct (i =? to)%nat; reflexivity. }
      assert (M1 : mid ex nd1 (map fst (n_sufs nd1))).
      { constructor.
        - intros i. rewrite HS. destruct (Nat.eqb_spec i to); [intros; lia|]. destruct (i =? from)%nat; [discriminate|apply H1].
        - change (n_used nd1) with (n_used nd). rewrite H2.
          change (n_set nd1) with (upd (upd (n_set nd) from false) to true).
          destruct (cnt_upd (n_set nd) from false (g_bits g) (H1 _ Es)) as [C1 C2]; [now rewrite Es|].
          destruct (cnt_upd (upd (n_set nd) from false) to true (g_bits g) Hbt) as [C3 _].
          { unfold upd. replace (to =? from)%nat with false by lia. now rewrite Et. }
          rewrite C3, C1. specialize (C2 eq_refl). lia.
        - intros s Hin. apply uses_in in Hin. rewrite HU in Hin. rewrite HS.
          destruct (Nat.eqb_spec s to); [reflexivity|]. destruct (Nat.eqb_spec s from); [lia|]. apply H3, uses_in. lia.
        - intros s. rewrite HS, HU, HRf. destruct (Nat.eqb_spec s to); [intros _|].
          + replace (s =? from)%nat with false by lia. apply H4. assumption.
          + destruct (Nat.eqb_spec s from); [discriminate|apply H4].
        - intros Hex s. rewrite HS, HU, HRf. destruct (Nat.eqb_spec s to); [intros _|].
          + replace (s =? from)%nat with false by lia. apply H5; assumption.
          + destruct (Nat.eqb_spec s from); [discriminate|now apply H5]. }
      destruct (IH nd1 M1) as [nd' [E1 [M' [L' [N' [U' T']]]]]]; [exact Hl'|].
      exists nd'. split; [exact E1|]. split; [exact M'|]. split; [rewrite L', HSuf; apply map_length|].
      split.
      { rewrite N', !entries_dec, HSuf, map_map. apply map_ext_in. intros x Hx. unfold dec, redirect, pay.
        destruct (Nat.eqb_spec (fst x) from) as [Ex|Ex]; cbn [fst snd]; rewrite HP.
        - rewrite Nat.eqb_refl. now rewrite Ex.
        - destruct (Nat.eqb_spec (fst x) to) as [Ex'|]; [|reflexivity].
          assert (HI : In to (map fst (n_sufs nd))) by (rewrite <- Ex'; now apply in_map).
          apply uses_in in HI. lia. }
      split; [exact U'|]. intros i Hi Hset. change (n_used nd) with (n_used nd1) in Hi. destruct (T' i Hi Hset) as [T1 T2]. rewrite HS in T1.
      destruct (Nat.eqb_spec i to); [change (n_used nd1) with (n_used nd) in Hi; lia|]. destruct (Nat.eqb_spec i from); [discriminate|].
      split; [assumption|]. intros [|]; [congruence|contradiction].
    + destruct (IH nd M Hl') as [nd' [E1 [M' [L' [N' [U' T']]]]]]. exists nd'. split; [exact E1|].
      do 4 (split; [assumption|]). intros i Hi Hset. destruct (T' i Hi Hset) as [T1 T2]. split; [assumption|].
      intros [<-|]; [congruence|contradiction].
Qed.

Lemma compact_ok : forall ex nd, core ex nd (map fst (n_sufs nd)) ->
  exists nd', compact g nd = Ok nd' /\ core ex nd' (map fst (n_sufs nd')) /\ count nd' = count nd /\
    entries c nd' = entries c nd /\ n_tail nd' = n_used nd.
Proof.
  intros ex nd K. pose proof K as [H1 H2 H3 H4 H5 H6 H7]. unfold compact.
  destruct (compact_loop_ok ex (seq (n_used nd) (g_bits g - n_used nd)) nd) as [nd' [E [M [L [N' [U T]]]]]].
  - constructor; auto.
  - apply Forall_forall. intros i Hi. apply in_seq in Hi. lia.
  - rewrite E. cbn [bind]. eexists. split; [reflexivity|]. destruct M as [M1 M2 M3 M4 M5]. split; [|split; [exact L|split; [exact N'|exact U]]].
    assert (HB : forall i, n_set nd' i = true -> (i < n_used nd')%nat).
    { intros i Hi. rewrite U. destruct (Nat.ltb_spec i (n_used nd)) as [|Hge]; [assumption|exfalso]. destruct (T i Hge Hi) as [T1 T2].
      apply T2, in_seq. pose proof (M1 i Hi). lia. }
    constructor; cbn [n_sufs n_slot n_set n_used n_tail]; auto.
    destruct (Nat.eq_dec (n_used nd') 0) as [|Hnz]; [now left|right]. destruct (n_set nd' (n_used nd' - 1)) eqn:Es; [reflexivity|exfalso].
    assert (HC : (cnt (n_set nd') (g_bits g) <= n_used nd' - 1)%nat).
    { apply cnt_below. intros i Hi. pose proof (HB i Hi). destruct (Nat.eq_dec i (n_used nd' - 1)); [congruence|lia]. }
    lia.
Qed.

Lemma compact_inv : forall ex nd, inv ex nd ->
  exists nd', compact g nd = Ok nd' /\ inv ex nd' /\ entries c nd' = entries c nd /\
    avail g nd' = avail_compact g nd.
Proof.
  intros ex nd [K F]. pose proof (used_tail ex nd _ K) as Hut. destruct (compact_ok ex nd K) as [nd' [E [K' [C' [N' T']]]]].
  assert (Hm : N.of_nat (n_used nd) * g_psz g + N.of_nat (holes nd) * g_psz g = N.of_nat (n_tail nd) * g_psz g).
  { rewrite <- N.mul_add_distr_r. f_equal. unfold holes. lia. }
  exists nd'. split; [exact E|]. split; [constructor; [exact K'|]|split; [exact N'|]].
  - rewrite C', T'. lia.
  - unfold avail_compact, avail. rewrite C', T'. lia.
Qed.

Lemma update_ok : forall ex nd i k v, inv ex nd -> (i < count nd)%nat ->
  update c g nd i k v = Stop NoRoom \/
  exists nd', update c g nd i k v = Ok nd' /\ inv false nd' /\
    entries c nd' = firstn i (entries c nd) ++ (k, v) :: skipn (S i) (entries c nd).
Proof.
  intros ex nd i k v I Hi. unfold update. replace (count nd <=? i)%nat with false by lia.
  assert (HR : (if has_room g nd 1 then Ok nd else if has_room_compact g nd 1 then compact g nd else Stop NoRoom) = Stop NoRoom \/
    exists nd1, (if has_room g nd 1 then Ok nd else if has_room_compact g nd 1 then compact g nd else Stop NoRoom) = Ok nd1 /\
      inv ex nd1 /\ entries c nd1 = entries c nd /\ has_room g nd1 1 = true).
  { destruct (has_room g nd 1) eqn:E1; [right; exists nd; auto|].
    destruct (has_room_compact g nd 1) eqn:E2; [right|now left].
    destruct (compact_inv ex nd I) as [nd' [E [I' [N' A']]]]. exists nd'. split; [exact E|]. split; [exact I'|]. split; [exact N'|].
    unfold has_room. rewrite A'. exact E2. }
  destruct HR as [HR|[nd1 [HR [I1 [N1 R1]]]]]; rewrite HR; [now left|right]. cbn [bind]. clear HR.
  assert (Hi1 : (i < count nd1)%nat) by (rewrite <- entries_length, N1, entries_length; assumption).
  rewrite <- N1. clear I Hi N1 nd. rename nd1 into nd, I1 into I, R1 into Er, Hi1 into Hi.
  destruct (has_room_iff ex nd 1 I Er) as [HR Ht]. specialize (Ht ltac:(lia)). pose proof I as [K F].
  destruct (nth_error (n_sufs nd) i) as [x|] eqn:E; [|apply nth_error_None in E; unfold count in Hi; lia].
  destruct (replace_split _ _ _ _ E) as [HL H1]. set (l1 := firstn i (n_sufs nd)) in *. set (l2 := skipn (S i) (n_sufs nd)) in *.
  assert (K0 : core false nd (map fst (l1 ++ l2))).
  { rewrite HL in K. apply core_drop in K. eapply core_leak. exact K. }
  destruct (place_new false nd l1 l2 x k v K0 HL Ht) as [s [nd1 [E1 [_ H]]]]. cbv zeta in H. rewrite H1 in H.
  destruct H as [K2 [S2 [P2 [Q2 [N2 [T2 _]]]]]]. rewrite E1. cbn [bind]. set (nd2 := write_suffix c nd1 i s k v) in *.
  assert (HC : count nd2 = count nd).
  { unfold count. rewrite S2. transitivity (length (l1 ++ x :: l2)); [rewrite !app_length; reflexivity|now rewrite <- HL]. }
  assert (F2 : g_base g + N.of_nat (count nd2) * g_ssz g + N.of_nat (n_tail nd2) * g_psz g <= g_data g).
  { apply (fits_of nd2 (count nd) (S (n_tail nd))); auto. rewrite !Nat2N.inj_succ, <- !N.add_1_r. lia. }
  rewrite checked_ok by exact F2. exists nd2. split; [reflexivity|]. split; [constructor|].
  - now rewrite S2.
  - exact F2.
  - rewrite !entries_dec, S2, (mid_ext (pay nd2) (pay nd)); auto. unfold l1, l2. now rewrite <- firstn_map, <- skipn_map.
Qed.

(** ** Moving *)

Lemma alloc_ok : forall ex nd l, core ex nd l -> (n_tail nd < g_bits g)%nat ->
  exists s nd1, alloc g nd = Ok (s, nd1) /\ forall x,
    let nd2 := set_slot nd1 s (1, x) in
    core ex nd2 (s :: l) /\ n_sufs nd2 = n_sufs nd /\ pay nd2 s = x /\ (forall j, j <> s -> n_slot nd2 j = n_slot nd j) /\
    (forall j, n_set nd2 j = if (j =? s)%nat then true else n_set nd j) /\
    ~ In s l /\ n_set nd s = false /\ (n_tail nd2 <= S (n_tail nd))%nat /\ refs nd2 s = 1.
Proof.
  intros ex nd l K Ht. destruct (next_reset_some _ _ _ K Ht) as [s [E [Hs [Hb Hst]]]]. unfold alloc. rewrite E.
  eexists s, _. split; [reflexivity|]. intros x. cbv zeta.
  split; [|split; [|split; [|split; [|split; [|split; [|split; [|split]]]]]]].
  - apply (take_ok ex nd l s x); auto.
  - reflexivity.
  - unfold pay, set_slot. cbn [n_slot]. unfold upd. now rewrite Nat.eqb_refl.
  - intros j Hj. unfold set_slot. cbn [n_slot]. unfold upd. now replace (j =? s)%nat with false by lia.
  - reflexivity.
  - intros Hin. apply (k_in _ _ _ K) in Hin. congruence.
  - assumption.
  - unfold set_slot. cbn [n_tail]. lia.
  - unfold refs, set_slot. cbn [n_slot]. unfold upd. now rewrite Nat.eqb_refl.
Qed.

Lemma lookup_in : forall m a s, lookup m a = Some s -> In (a, s) m.
Proof.
  intros m a s. unfold lookup. destruct (find _ m) as [[x y]|] eqn:E; [|discriminate]. intros [= <-].
  apply find_some in E. cbn in E. destruct E as [E1 E2]. replace a with x by lia. assumption.
Qed.
Lemma lookup_not : forall m a, lookup m a = None -> ~ In a (map fst m).
Proof.
  intros m a. unfold lookup. destruct (find _ m) eqn:E; [discriminate|]. intros _ Hin. apply in_map_iff in Hin.
  destruct Hin as [[x y] [E1 Hin]]. apply (find_none _ _ E) in Hin. cbn in *. lia.
Qed.

(** The map from slots of one node to slots of the other. *)
Definition map_ok (m : list (nat * nat)) (src dst : node) (out : list nat) : Prop :=
  NoDup (map fst m) /\ forall a s, In (a, s) m ->
    pay dst s = pay src a /\ n_set dst s = true /\ refs dst s = N.of_nat (uses s out).

Lemma move_loop_ok : forall ex nd0 by_size limit l nd dst m size num out done,
  core ex nd0 (map fst (n_sufs nd0)) -> N.of_nat (count nd0) < 65535 -> n_sufs nd0 = rev l ++ done ->
  core ex nd (map fst (rev l)) -> (forall j, pay nd j = pay nd0 j) -> n_sufs nd = n_sufs nd0 -> (n_tail nd <= n_tail nd0)%nat ->
  core true dst (map fst out) -> map_ok m nd0 dst (map fst out) -> (forall a, In a (map fst m) -> n_set nd0 a = true) ->
  (n_tail dst <= length m)%nat -> map (dec (pay dst)) out = map (dec (pay nd0)) done ->
  num = N.of_nat (length out) -> n_sufs dst = [] -> (by_size = false -> num <= limit) ->
  exists nd' dst' out' size' l' done', move_loop g l nd dst m by_size limit size num out = Ok (nd', dst', out', size') /\
    n_sufs nd0 = l' ++ done' /\ core ex nd' (map fst l') /\ (forall j, pay nd' j = pay nd0 j) /\ n_sufs nd' = n_sufs nd0 /\
    (n_tail nd' <= n_tail nd0)%nat /\ core true dst' (map fst out') /\ (n_tail dst' <= n_used nd0)%nat /\
    map (dec (pay dst')) out' = map (dec (pay nd0)) done' /\
    (by_size = false -> N.of_nat (length out') = N.min limit (N.of_nat (count nd0))).
Proof.
  intros ex nd0 by_size limit. induction l as [|x l IH];
    intros nd dst m size num out done K0 HC HL K HP HS HT KD [HM1 HM2] HMs HTD HE Hn HD Hlim; cbn [move_loop].
  - exists nd, dst, out, size, [], done. split; [reflexivity|]. cbn [rev app] in *. split; [assumption|].
    do 4 (split; [assumption|]). split; [assumption|].
    assert (HU : (length m <= n_used nd0)%nat).
    { rewrite (k_used _ _ _ K0), <- (map_length fst m). apply cnt_nodup; [assumption|].
      intros a Ha. apply HMs in Ha. split; [now apply (k_bits _ _ _ K0)|assumption]. }
    split; [lia|]. split; [assumption|]. intros Hb. specialize (Hlim Hb). apply (f_equal (@length _)) in HE. rewrite !map_length in HE.
    unfold count. rewrite HL. lia.
  - assert (HU : forall z : list (nat * nat), NoDup (map fst z) -> (forall a, In a (map fst z) -> n_set nd0 a = true) -> (length z <= n_used nd0)%nat).
    { intros z Hz Hz'. rewrite (k_used _ _ _ K0), <- (map_length (@fst nat nat) z). apply cnt_nodup; [assumption|].
      intros a Ha. apply Hz' in Ha. split; [now apply (k_bits _ _ _ K0)|assumption]. }
    assert (HLn : length out = length done) by (apply (f_equal (@length _)) in HE; rewrite !map_length in HE; exact HE).
    destruct (if by_size then limit <? size else num =? limit) eqn:Ec.
    { exists nd, dst, out, size, (rev (x :: l)), done. split; [reflexivity|]. do 5 (split; [assumption|]). split; [assumption|].
      specialize (HU m HM1 HMs). split; [lia|]. split; [assumption|]. intros ->.
      unfold count. rewrite HL, app_length, rev_length. cbn [length]. lia. }
    cbn [rev] in HL, K. rewrite <- app_assoc in HL. cbn [app] in HL.
    assert (KX : core ex nd (fst x :: map fst (rev l))).
    { eapply core_same; [exact K|..]; try reflexivity. intros s. rewrite map_app, uses_app. cbn [map]. rewrite !uses_cons. change (uses s []) with 0%nat. lia. }
    destruct (deref_ok ex nd _ _ KX) as [K1 [T1 [P1 [S1 R1]]]].
    assert (Hset : n_set nd0 (fst x) = true).
    { apply (k_in _ _ _ K0). rewrite HL, map_app, in_app_iff. right. now left. }
    assert (Hout : N.of_nat (length out) < 65535).
    { unfold count in HC. rewrite HL, app_length in HC. cbn [length] in HC. lia. }
    destruct (lookup m (fst x)) as [s|] eqn:El.
    + apply lookup_in in El. destruct (HM2 _ _ El) as [M1 [M2 M3]].
      destruct (ref_ok true dst (map fst out) s KD M2 M3) as [KR RR]; [now rewrite map_length|].
      destruct (ref_same dst s) as [S1' [S2' [S3' [S4' [S5' S6']]]]].
      apply (IH (deref nd (fst x)) (ref dst s) m _ _ ((s, snd x) :: out) (x :: done)); auto.
      * intros j. rewrite P1. apply HP.
      * rewrite S1. assumption.
      * lia.
      * split; [assumption|]. intros a s' Has. destruct (HM2 _ _ Has) as [N1 [N2 N3]]. rewrite S5', S2'. split; [assumption|].
        split; [assumption|]. cbn [map fst]. destruct (Nat.eq_dec s' s) as [->|Hne]; [assumption|].
        rewrite uses_cons. replace (s =? s')%nat with false by lia. cbn [Nat.add]. rewrite <- N3. unfold refs. rewrite S6'. unfold upd.
        now replace (s' =? s)%nat with false by lia.
      * lia.
      * cbn [map]. rewrite (dec_ext _ (pay dst)) by (intros; apply S5'). rewrite HE. f_equal. unfold dec. cbn [fst snd]. now rewrite S5', M1.
      * cbn [length]. lia.
      * congruence.
      * intros Hb. rewrite Hb in Ec. specialize (Hlim Hb). lia.
    + apply lookup_not in El.
      assert (Hz : (length ((fst x, 0%nat) :: m) <= n_used nd0)%nat).
      { apply HU; [constructor; assumption|]. intros a [<-|Ha]; [exact Hset|auto]. }
      cbn [length] in Hz. pose proof (used_bits _ _ _ K0) as Hub.
      destruct (alloc_ok true dst (map fst out) KD) as [s [d1 [EA HA]]]; [lia|]. rewrite EA. cbn [bind].
      specialize (HA (snd (n_slot nd (fst x)))). cbv zeta in HA. destruct HA as [A1 [A2 [A3 [A4 [A5 [A6 [A7 [A8 A9]]]]]]]].
      set (d2 := set_slot d1 s (1, snd (n_slot nd (fst x)))) in *.
      assert (A3' : pay d2 s = pay nd0 (fst x)) by (rewrite A3; apply (HP (fst x))).
      assert (A4' : forall j, j <> s -> pay d2 j = pay dst j) by (intros j Hj; unfold pay; now rewrite A4).
      apply (IH (deref nd (fst x)) d2 ((fst x, s) :: m) _ _ ((s, snd x) :: out) (x :: done)); auto.
      * intros j. rewrite P1. apply HP.
      * rewrite S1. assumption.
      * lia.
      * split; [constructor; assumption|]. intros a s' [Has|Has].
        -- injection Has as <- <-. split; [assumption|]. split; [rewrite A5, Nat.eqb_refl; reflexivity|].
           cbn [map fst]. rewrite A9, uses_cons, Nat.eqb_refl. destruct (uses s (map fst out)) eqn:Eu; [reflexivity|].
           exfalso. apply A6, uses_in. lia.
        -- destruct (HM2 _ _ Has) as [N1 [N2 N3]]. assert (Hne : s' <> s) by congruence.
           rewrite A4' by assumption. split; [assumption|]. split; [rewrite A5; now replace (s' =? s)%nat with false by lia|].
           cbn [map fst]. rewrite uses_cons. replace (s =? s')%nat with false by lia. cbn [Nat.add]. rewrite <- N3. unfold refs. now rewrite A4.
      * intros a [<-|Ha]; [exact Hset|auto].
      * cbn [length]. lia.
      * cbn [map]. rewrite (dec_ext _ (pay dst)).
        -- rewrite HE. f_equal. unfold dec. cbn [fst snd]. now rewrite A3'.
        -- intros j Hj. apply A4'. intros ->. contradiction.
      * cbn [length]. lia.
      * congruence.
      * intros Hb. rewrite Hb in Ec. specialize (Hlim Hb). lia.
Qed.

Lemma move_ok : forall ex nd by_size limit, inv ex nd ->
  exists nd' dst' n x, move_right g nd new_node by_size limit = Ok (nd', dst', n, x) /\
    inv ex nd' /\ inv true dst' /\ (n <= count nd)%nat /\
    (by_size = false -> n = Nat.min (N.to_nat limit) (count nd)) /\
    entries c nd' = firstn (count nd - n) (entries c nd) /\ entries c dst' = skipn (count nd - n) (entries c nd).
Proof.
  intros ex nd by_size limit I. pose proof I as [K F]. pose proof (inv_count ex nd I) as HC.
  destruct Hg as [G1 [G2 [G3 [G4 G5]]]]. unfold move_right. cbn [count new_node n_sufs length Nat.eqb negb].
  destruct (Nat.eqb_spec (count nd) 0) as [E0|E0].
  { eexists nd, new_node, 0%nat, _. split; [reflexivity|]. split; [assumption|]. split; [apply new_inv|].
    split; [lia|]. split; [lia|]. assert (entries c nd = []) by (apply length_zero_iff_nil; now rewrite entries_length).
    rewrite H, firstn_nil, skipn_nil. split; reflexivity. }
  destruct (move_loop_ok ex nd by_size limit (rev (n_sufs nd)) nd new_node [] (occupied g new_node) 0 [] [])
    as [nd' [dst' [out [size [l' [done [E [H1 [H2 [H3 [H4 [H5 [H6 [H7 [H8 H9]]]]]]]]]]]]]]]; auto.
  - lia.
  - now rewrite rev_involutive, app_nil_r.
  - now rewrite rev_involutive.
  - apply (i_core _ _ (new_inv true)).
  - split; [constructor|]. intros a s [].
  - lia.
  - rewrite E. cbn [bind].
    assert (HL : length out = length done) by (apply (f_equal (@length _)) in H8; rewrite !map_length in H8; exact H8).
    assert (HN : count nd = (length l' + length out)%nat) by (unfold count; rewrite H1, app_length; lia).
    assert (HC' : count nd' = count nd) by (unfold count; now rewrite H4).
    assert (HF : firstn (count nd' - length out) (n_sufs nd') = l').
    { rewrite HC', HN, H4, H1. rewrite firstn_app, firstn_all2 by lia.
      replace (length l' + length out - length out - length l')%nat with 0%nat by lia. cbn. now rewrite app_nil_r. }
    rewrite HF. set (nd1 := set_sufs nd' l'). set (d1 := set_sufs dst' out).
    pose proof (used_tail _ _ _ K) as Hut.
    assert (FD : g_base g + N.of_nat (count d1) * g_ssz g + N.of_nat (n_tail d1) * g_psz g <= g_data g).
    { apply (fits_of d1 (length out) (n_tail nd)); auto; [change (n_tail d1) with (n_tail dst'); lia|].
      assert (N.of_nat (length out) * g_ssz g <= N.of_nat (count nd) * g_ssz g) by (apply N.mul_le_mono_r; lia). lia. }
    assert (F1 : g_base g + N.of_nat (count nd1) * g_ssz g + N.of_nat (n_tail nd1) * g_psz g <= g_data g).
    { apply (fits_of nd1 (length l') (n_tail nd)); auto.
      assert (N.of_nat (length l') * g_ssz g <= N.of_nat (count nd) * g_ssz g) by (apply N.mul_le_mono_r; lia). lia. }
    assert (I1 : inv ex nd1) by (constructor; [eapply core_same; [exact H2|..]; reflexivity|exact F1]).
    assert (ID : inv true d1) by (constructor; [eapply core_same; [exact H6|..]; reflexivity|exact FD]).
    assert (E1 : entries c nd1 = firstn (count nd - length out) (entries c nd)).
    { rewrite !entries_dec. change (n_sufs nd1) with l'. rewrite (dec_ext _ (pay nd)) by (intros; apply H3).
      rewrite H1, map_app, firstn_app, firstn_all2 by (rewrite map_length; lia). rewrite map_length.
      replace (count nd - length out - length l')%nat with 0%nat by lia. cbn. now rewrite app_nil_r. }
    assert (E2 : entries c d1 = skipn (count nd - length out) (entries c nd)).
    { rewrite !entries_dec. change (map (dec (pay dst')) out = skipn (count nd - length out) (map (dec (pay nd)) (n_sufs nd))).
      rewrite H8, H1, map_app, skipn_app, skipn_all2 by (rewrite map_length; lia). rewrite map_length.
      replace (count nd - length out - length l')%nat with 0%nat by lia. reflexivity. }
    rewrite checked_ok by exact FD. cbn [bind].
    assert (HK : exists nd2, (if (10 <? holes nd1)%nat then compact g nd1 else Ok nd1) = Ok nd2 /\ inv ex nd2 /\
      entries c nd2 = entries c nd1).
    { destruct (10 <? holes nd1)%nat; [|exists nd1; auto]. destruct (compact_inv ex nd1 I1) as [nd2 [C1 [C2 [C3 _]]]]. exists nd2. auto. }
    destruct HK as [nd2 [C1 [C2 C3]]]. rewrite C1. cbn [bind]. eexists nd2, d1, (length out), _. split; [reflexivity|].
    split; [assumption|]. split; [assumption|]. split; [lia|]. split; [intros Hb; specialize (H9 Hb); lia|].
    split; [now rewrite C3|assumption].
Qed.

(** ** Copying *)

Lemma has_room_tail : forall nd, has_room g nd 1 = true -> (n_tail nd < g_bits g)%nat.
Proof.
  intros nd H. destruct Hg as [G1 [G2 [G3 [G4 G5]]]]. unfold has_room, avail in H.
  destruct (Nat.ltb_spec (n_tail nd) (g_bits g)); [assumption|exfalso].
  assert (N.of_nat (g_bits g) * g_psz g <= N.of_nat (n_tail nd) * g_psz g) by (apply N.mul_le_mono_r; lia).
  rewrite Nat2N.inj_succ, N.mul_succ_l in G5. lia.
Qed.

Lemma budget : forall lim m o a p s, lim * (p + s) <= a -> m <= o -> o < lim -> (m + 1) * p + (o + 1) * s <= a.
Proof. intros lim m o a p s H H1 H2. nia. Qed.

Definition within_budget (by_size : bool) (limit A : N) (m o : nat) : Prop :=
  if by_size then limit <= A /\ N.of_nat m * g_psz g + N.of_nat o * g_ssz g <= limit
  else limit * (g_psz g + g_ssz g) <= A /\ N.of_nat o <= limit /\ (m <= o)%nat.

Lemma within_budget_le : forall bs limit A m o, within_budget bs limit A m o ->
  N.of_nat m * g_psz g + N.of_nat o * g_ssz g <= A.
Proof.
  intros bs limit A m o. unfold within_budget. destruct bs; [lia|]. intros [H1 [H2 H3]].
  assert (N.of_nat m * g_psz g <= limit * g_psz g) by (apply N.mul_le_mono_r; lia).
  assert (N.of_nat o * g_ssz g <= limit * g_ssz g) by (apply N.mul_le_mono_r; lia).
  rewrite N.mul_add_distr_l in H1. lia.
Qed.

Lemma copy_loop_ok : forall ex nd0 src by_size limit all l nd m size num out done,
  inv ex nd0 -> (forall x, In x all -> n_set src (fst x) = true) -> all = done ++ l ->
  core ex nd (map fst (n_sufs nd0) ++ map fst out) -> n_sufs nd = n_sufs nd0 ->
  (forall j, In j (map fst (n_sufs nd0)) -> pay nd j = pay nd0 j) ->
  map_ok m src nd (map fst (n_sufs nd0) ++ map fst out) -> (n_tail nd <= n_tail nd0 + length m)%nat ->
  (forall j, In j (map fst out) -> In j (map snd m)) ->
  map (dec (pay nd)) out = map (dec (pay src)) done ->
  within_budget by_size limit (avail g nd0) (length m) (length out) ->
  size = N.of_nat (length m) * g_psz g + N.of_nat (length out) * g_ssz g -> num = N.of_nat (length out) ->
  exists nd' out' size' p, copy_loop g l src nd m by_size limit size num out = Ok (nd', out', size') /\
    core ex nd' (map fst (n_sufs nd0) ++ map fst out') /\ n_sufs nd' = n_sufs nd0 /\
    (forall j, In j (map fst (n_sufs nd0)) -> pay nd' j = pay nd0 j) /\ (n_tail nd' <= n_tail nd0 + p)%nat /\
    N.of_nat p * g_psz g + N.of_nat (length out') * g_ssz g <= avail g nd0 /\ (length out' <= length all)%nat /\
    map (dec (pay nd')) out' = firstn (length out') (map (dec (pay src)) all) /\
    (by_size = false -> N.of_nat (length out') = N.min limit (N.of_nat (length all))).
Proof.
  intros ex nd0 src by_size limit all. induction l as [|x l IH];
    intros nd m size num out done I0 HA HL K HS HP [HM1 HM2] HT HO HE HB Hsz Hn; cbn [copy_loop];
    pose proof (within_budget_le _ _ _ _ _ HB) as HB';
    assert (HLn : length out = length done) by (apply (f_equal (@length _)) in HE; rewrite !map_length in HE; exact HE);
    assert (HF : map (dec (pay nd)) out = firstn (length out) (map (dec (pay src)) all))
      by (rewrite HE, HL, map_app, firstn_app, firstn_all2, map_length by (rewrite map_length; lia);
          replace (length out - length done)%nat with 0%nat by lia; cbn; now rewrite app_nil_r);
    assert (HLA : (length out <= length all)%nat) by (rewrite HL, app_length; lia).
  - exists nd, out, size, (length m). split; [reflexivity|]. do 7 (split; [assumption|]). intros Hb. rewrite app_nil_r in HL. subst all.
    rewrite Hb in HB. unfold within_budget in HB. lia.
  - assert (HSTOP : by_size = false -> num = limit ->
      exists nd' out' size' p, Ok (nd, out, size) = Ok (nd', out', size') /\
    core ex nd' (map fst (n_sufs nd0) ++ map fst out') /\ n_sufs nd' = n_sufs nd0 /\
    (forall j, In j (map fst (n_sufs nd0)) -> pay nd' j = pay nd0 j) /\ (n_tail nd' <= n_tail nd0 + p)%nat /\
    N.of_nat p * g_psz g + N.of_nat (length out') * g_ssz g <= avail g nd0 /\ (length out' <= length all)%nat /\
    map (dec (pay nd')) out' = firstn (length out') (map (dec (pay src)) all) /\
    (by_size = false -> N.of_nat (length out') = N.min limit (N.of_nat (length all)))).
    { intros Hb Hl. exists nd, out, size, (length m). split; [reflexivity|]. do 7 (split; [assumption|]). intros _.
      rewrite HL, app_length in HLA |- *. lia. }
    assert (HSIZE : by_size = true -> forall size : N,
      exists nd' out' size' p, Ok (nd, out, size) = Ok (nd', out', size') /\
    core ex nd' (map fst (n_sufs nd0) ++ map fst out') /\ n_sufs nd' = n_sufs nd0 /\
    (forall j, In j (map fst (n_sufs nd0)) -> pay nd' j = pay nd0 j) /\ (n_tail nd' <= n_tail nd0 + p)%nat /\
    N.of_nat p * g_psz g + N.of_nat (length out') * g_ssz g <= avail g nd0 /\ (length out' <= length all)%nat /\
    map (dec (pay nd')) out' = firstn (length out') (map (dec (pay src)) all) /\
    (by_size = false -> N.of_nat (length out') = N.min limit (N.of_nat (length all)))).
    { intros Hb sz. exists nd, out, sz, (length m). split; [reflexivity|]. do 7 (split; [assumption|]). intros; congruence. }
    assert (HC0 : count nd = count nd0) by (unfold count; now rewrite HS).
    pose proof I0 as [K0 F0]. pose proof (inv_count ex nd0 I0) as HC.
    assert (HT' : N.of_nat (n_tail nd) * g_psz g <= N.of_nat (n_tail nd0) * g_psz g + N.of_nat (length m) * g_psz g).
    { rewrite <- N.mul_add_distr_r. apply N.mul_le_mono_r. lia. }
    destruct (has_room g nd 1) eqn:Er; cbn [negb].
    2:{ destruct by_size; [now apply HSIZE|]. destruct (N.eq_dec num limit) as [Hl|Hl]; [now apply HSTOP|exfalso].
        destruct HB as [B1 [B2 B3]].
        pose proof (budget limit (N.of_nat (length m)) (N.of_nat (length out)) _ _ _ B1 ltac:(lia) ltac:(lia)) as HH.
        rewrite !N.mul_add_distr_r in HH. unfold has_room, avail in Er, HH. rewrite HC0 in Er. lia. }
    pose proof (has_room_tail nd Er) as Htb.
    destruct (negb by_size && (limit <=? num)) eqn:Ec.
    { apply HSTOP; [destruct by_size; [discriminate|reflexivity]|]. destruct by_size; [discriminate|]. destruct HB as [B1 [B2 B3]]. cbn in Ec. lia. }
    assert (Hx : n_set src (fst x) = true) by (apply HA; rewrite HL, in_app_iff; right; now left).
    assert (HUA : forall j s, uses j (map fst (n_sufs nd0) ++ map fst (out ++ [(s, snd x)])) =
      uses j (s :: map fst (n_sufs nd0) ++ map fst out)).
    { intros j s. rewrite map_app, app_assoc, uses_app, !uses_cons. cbn [map fst]. rewrite uses_cons. change (uses j []) with 0%nat. lia. }
    assert (HLEN : forall s, length (out ++ [(s, snd x)]) = S (length out)) by (intros; rewrite app_length; cbn; lia).
    assert (HSM : N.of_nat (length (map fst (n_sufs nd0) ++ map fst out)) < 65535).
    { rewrite app_length, !map_length. change (length (n_sufs nd0)) with (count nd0). rewrite Nat2N.inj_add.
      destruct Hg as [G1 [G2 [G3 [G4 G5]]]].
      assert (N.of_nat (length out) * 1 <= N.of_nat (length out) * g_ssz g) by (apply N.mul_le_mono_l; lia).
      assert (N.of_nat (count nd0) * 1 <= N.of_nat (count nd0) * g_ssz g) by (apply N.mul_le_mono_l; lia).
      unfold avail in HB'. lia. }
    destruct (lookup m (fst x)) as [s|] eqn:El.
    + apply lookup_in in El. destruct (HM2 _ _ El) as [M1 [M2 M3]].
      destruct (by_size && (limit <? size + g_ssz g)) eqn:Es.
      { apply HSIZE. destruct by_size; [reflexivity|discriminate]. }
      destruct (ref_ok ex nd _ s K M2 M3 HSM) as [KR RR].
      destruct (ref_same nd s) as [S1' [S2' [S3' [S4' [S5' S6']]]]].
      apply (IH (ref nd s) m _ _ (out ++ [(s, snd x)]) (done ++ [x])); auto.
      * rewrite HL, <- app_assoc. reflexivity.
      * eapply core_same; [exact KR|..]; try reflexivity. intros j. apply HUA.
      * congruence.
      * intros j Hj. rewrite S5'. auto.
      * split; [assumption|]. intros a s' Has. destruct (HM2 _ _ Has) as [N1 [N2 N3]]. rewrite S5', S2'. split; [assumption|].
        split; [assumption|]. rewrite HUA. destruct (Nat.eq_dec s' s) as [->|Hne]; [assumption|].
        rewrite uses_cons. replace (s =? s')%nat with false by lia. cbn [Nat.add]. rewrite <- N3. unfold refs. rewrite S6'. unfold upd.
        now replace (s' =? s)%nat with false by lia.
      * lia.
      * intros j. rewrite map_app, in_app_iff. intros [Hj|[<-|[]]]; [auto|]. apply in_map_iff. exists (fst x, s). auto.
      * rewrite !map_app. cbn [map]. rewrite (dec_ext _ (pay nd)) by (intros; apply S5'). rewrite HE. do 2 f_equal.
        unfold dec. cbn [fst snd]. now rewrite S5', M1.
      * rewrite HLEN. destruct by_size; cbn [andb negb] in *; unfold within_budget in *; rewrite Nat2N.inj_succ, ?N.mul_succ_l; lia.
      * rewrite HLEN, Nat2N.inj_succ, N.mul_succ_l. lia.
      * rewrite HLEN. lia.
    + apply lookup_not in El. destruct (by_size && (limit <? size + g_psz g + g_ssz g)) eqn:Es.
      { apply HSIZE. destruct by_size; [reflexivity|discriminate]. }
      destruct (alloc_ok ex nd _ K Htb) as [s [d1 [EA HAl]]]. rewrite EA. cbn [bind].
      specialize (HAl (snd (n_slot src (fst x)))). cbv zeta in HAl. destruct HAl as [A1 [A2 [A3 [A4 [A5 [A6 [A7 [A8 A9]]]]]]]].
      set (d2 := set_slot d1 s (1, snd (n_slot src (fst x)))) in *.
      assert (A4' : forall j, j <> s -> pay d2 j = pay nd j) by (intros j Hj; unfold pay; now rewrite A4).
      rewrite in_app_iff in A6.
      apply (IH d2 ((fst x, s) :: m) _ _ (out ++ [(s, snd x)]) (done ++ [x])); auto.
      * rewrite HL, <- app_assoc. reflexivity.
      * eapply core_same; [exact A1|..]; try reflexivity. intros j. apply HUA.
      * congruence.
      * intros j Hj. rewrite A4'; [auto|]. intros ->. tauto.
      * split; [constructor; assumption|]. intros a s' [Has|Has].
        -- injection Has as <- <-. split; [assumption|]. split; [rewrite A5, Nat.eqb_refl; reflexivity|].
           rewrite HUA, A9, uses_cons, Nat.eqb_refl. destruct (uses s (map fst (n_sufs nd0) ++ map fst out)) eqn:Eu; [reflexivity|].
           exfalso. apply A6, in_app_iff, uses_in. lia.
        -- destruct (HM2 _ _ Has) as [N1 [N2 N3]]. assert (Hne : s' <> s) by congruence.
           rewrite A4' by assumption. split; [assumption|]. split; [rewrite A5; now replace (s' =? s)%nat with false by lia|].
           rewrite HUA, uses_cons. replace (s =? s')%nat with false by lia. cbn [Nat.add]. rewrite <- N3. unfold refs. now rewrite A4.
      * cbn [length]. lia.
      * intros j. rewrite map_app, in_app_iff. cbn [map snd fst]. intros [Hj|[<-|[]]]; [right; auto|now left].
      * rewrite !map_app. cbn [map]. rewrite (dec_ext _ (pay nd)).
        -- rewrite HE. do 2 f_equal. unfold dec. cbn [fst snd]. rewrite A3. reflexivity.
        -- intros j Hj. apply A4'. intros ->. tauto.
      * rewrite HLEN. cbn [length]. destruct by_size; cbn [andb negb] in *; unfold within_budget in *; rewrite !Nat2N.inj_succ, ?N.mul_succ_l; lia.
      * rewrite HLEN. cbn [length]. rewrite !Nat2N.inj_succ, !N.mul_succ_l. lia.
      * rewrite HLEN. lia.
Qed.

Lemma copy_internal_ok : forall ex exs nd src start by_size limit, inv ex nd -> inv exs src ->
  (if (by_size : bool) then limit <= avail g nd else limit * (g_psz g + g_ssz g) <= avail g nd) ->
  exists nd' n x, copy_internal g nd src start by_size limit = Ok (nd', n, x) /\ inv ex nd' /\
    (n <= length (skipn start (entries c src)))%nat /\
    (by_size = false -> n = Nat.min (N.to_nat limit) (length (skipn start (entries c src)))) /\
    entries c nd' = entries c nd ++ firstn n (skipn start (entries c src)).
Proof.
  intros ex exs nd src start by_size limit I IS HB. unfold copy_internal. pose proof I as [K F]. pose proof IS as [KS FS].
  assert (HSK : map (dec (pay src)) (skipn start (n_sufs src)) = skipn start (entries c src)) by (rewrite entries_dec; now rewrite skipn_map).
  assert (HLK : length (skipn start (entries c src)) = length (skipn start (n_sufs src))) by (rewrite <- HSK; apply map_length).
  destruct (copy_loop_ok ex nd src by_size limit (skipn start (n_sufs src)) (skipn start (n_sufs src)) nd [] 0 0 [] [])
    as [nd' [out [sz [p [E [H1 [H2 [H3 [H4 [H5 [H6 [H7 H8]]]]]]]]]]]]; auto.
  - intros x Hx. apply (k_in _ _ _ KS). apply in_map. rewrite <- (firstn_skipn start (n_sufs src)), in_app_iff. now right.
  - cbn [map]. now rewrite app_nil_r.
  - split; [constructor|]. intros a s [].
  - lia.
  - unfold within_budget. cbn [length]. destruct by_size; [|split; [assumption|lia]]. split; [assumption|]. cbn. lia.
  - rewrite E. cbn [bind]. set (nd1 := set_sufs nd' (n_sufs nd' ++ out)).
    assert (HC : count nd1 = (count nd + length out)%nat).
    { unfold count, nd1. cbn [set_sufs n_sufs]. rewrite app_length, H2. reflexivity. }
    assert (F1 : g_base g + N.of_nat (count nd1) * g_ssz g + N.of_nat (n_tail nd1) * g_psz g <= g_data g).
    { apply (fits_of nd1 (count nd + length out)%nat (n_tail nd + p)%nat); auto.
      rewrite !Nat2N.inj_add, !N.mul_add_distr_r. unfold avail in H5. lia. }
    rewrite checked_ok by exact F1. cbn [bind]. do 3 eexists. split; [reflexivity|].
    split; [constructor|split; [|split]].
    + unfold nd1. cbn [set_sufs n_sufs]. rewrite H2, map_app. eapply core_same; [exact H1|..]; reflexivity.
    + exact F1.
    + rewrite HLK. assumption.
    + intros Hb. rewrite HLK. specialize (H8 Hb). lia.
    + rewrite !entries_dec. unfold nd1 at 2. cbn [set_sufs n_sufs]. rewrite H2, map_app. f_equal.
      * apply dec_ext. exact H3.
      * change (pay nd1) with (pay nd'). rewrite H7, HSK. reflexivity.
Qed.

Lemma copy_size_ok : forall ex exs nd src start size, inv ex nd -> inv exs src -> size <= avail g nd ->
  exists nd' n x, copy_by_size g nd src start size = Ok (nd', n, x) /\ inv ex nd' /\
    (n <= length (skipn start (entries c src)))%nat /\
    entries c nd' = entries c nd ++ firstn n (skipn start (entries c src)).
Proof.
  intros ex exs nd src start size I IS H. destruct (copy_internal_ok ex exs nd src start true size I IS H) as [nd' [n [x [E [I' [L [_ N']]]]]]].
  exists nd', n, x. auto.
Qed.

Lemma copy_entries_ok : forall ex exs nd src start n, inv ex nd -> inv exs src ->
  (N.of_nat n * (g_psz g + g_ssz g) <= avail g nd \/
   has_room g nd n = false /\ N.of_nat n * (g_psz g + g_ssz g) <= avail_compact g nd) ->
  exists nd' x, copy_by_entries g nd src start n = Ok (nd', Nat.min n (length (skipn start (entries c src))), x) /\ inv ex nd' /\
    entries c nd' = entries c nd ++ firstn n (skipn start (entries c src)).
Proof.
  intros ex exs nd src start n I IS H. unfold copy_by_entries. destruct (Nat.eqb_spec n 0) as [->|Hn].
  { exists nd, 0. cbn [Nat.min firstn]. rewrite app_nil_r. auto. }
  assert (HX : exists nd1, (if negb (has_room g nd n) && has_room_compact g nd n then compact g nd else Ok nd) = Ok nd1 /\
    inv ex nd1 /\ entries c nd1 = entries c nd /\ N.of_nat n * (g_psz g + g_ssz g) <= avail g nd1).
  { assert (Hps : g_psz g + N.of_nat n * g_ssz g <= N.of_nat n * (g_psz g + g_ssz g)).
    { rewrite N.mul_add_distr_l. assert (1 * g_psz g <= N.of_nat n * g_psz g) by (apply N.mul_le_mono_r; lia). lia. }
    destruct H as [H|[H1 H2]].
    - replace (has_room g nd n) with true by (unfold has_room; lia). exists nd. auto.
    - rewrite H1. replace (has_room_compact g nd n) with true by (unfold has_room_compact; lia). cbn [negb andb].
      destruct (compact_inv ex nd I) as [nd1 [E [I1 [N1 A1]]]]. exists nd1. rewrite A1. auto. }
  destruct HX as [nd1 [E [I1 [N1 A1]]]]. rewrite E. cbn [bind].
  destruct (copy_internal_ok ex exs nd1 src start false (N.of_nat n) I1 IS A1) as [nd' [m [x [E' [I' [L [M N']]]]]]].
  specialize (M eq_refl). rewrite Nat2N.id in M. exists nd', x. rewrite E', <- M. split; [reflexivity|]. split; [assumption|].
  rewrite N', N1. f_equal. subst m. destruct (Nat.min_spec n (length (skipn start (entries c src)))) as [[? ->]|[? ->]]; [reflexivity|].
  rewrite !firstn_all2 by lia. reflexivity.
Qed.

(** ** Range removal *)

Lemma within_eq : forall r k, within r k = (first_key r <=? k)%Z && negb (beyond r k).
Proof. intros r k. unfold within, first_key, beyond. destruct (r_sincl r), (r_eincl r); cbn [negb]; lia. Qed.

Lemma beyond_mono : forall r k k', beyond r k = true -> (k <= k')%Z -> beyond r k' = true.
Proof. intros r k k'. unfold beyond. destruct (r_eincl r); cbn [negb]; lia. Qed.

Lemma sorted_app : forall a b, sorted (a ++ b) <->
  sorted a /\ sorted b /\ Forall (fun x => Forall (fun y => fst x < fst y)%Z b) a.
Proof.
  induction a as [|x a IH]; intros b; cbn [app sorted].
  - split; [intros H; split; [exact I|split; [exact H|constructor]]|tauto].
  - rewrite IH, Forall_app, Forall_cons_iff. tauto.
Qed.

Lemma position_split : forall nd k, sorted (entries c nd) ->
  exists A B, entries c nd = A ++ B /\ length A = position c nd k /\
    Forall (fun e => fst e < k)%Z A /\ Forall (fun e => k <= fst e)%Z B.
Proof.
  intros nd k. unfold position. induction (entries c nd) as [|e l IH]; intros H.
  - exists [], []. cbn. auto.
  - cbn [sorted] in H. destruct H as [H1 H2]. cbn [filter]. destruct (Z.ltb_spec (fst e) k) as [Hk|Hk].
    + destruct (IH H2) as [A [B [E [L [FA FB]]]]]. exists (e :: A), B. split; [cbn; now rewrite E|]. split; [cbn; now rewrite L|]. auto.
    + exists [], (e :: l). split; [reflexivity|]. split; [|split; [constructor|]].
      * cbn. clear IH H2. induction l as [|y l IH]; [reflexivity|]. inversion H1; subst. cbn [filter].
        replace (fst y <? k)%Z with false by lia. now apply IH.
      * constructor; [assumption|]. eapply Forall_impl; [|exact H1]. cbn. intros a Ha. lia.
Qed.

Definition hit (r : krange) (flt : option (Z -> Z -> bool)) (e : Z * Z) : bool :=
  negb (beyond r (fst e)) && match flt with None => true | Some f => f (fst e) (snd e) end.

Lemma hit_beyond : forall r flt e l, sorted (e :: l) -> beyond r (fst e) = true ->
  filter (hit r flt) (e :: l) = [] /\ filter (fun e => negb (hit r flt e)) (e :: l) = e :: l.
Proof.
  intros r flt e l [H _] Hb.
  assert (HF : Forall (fun x => hit r flt x = false) (e :: l)).
  { constructor; [unfold hit; now rewrite Hb|]. eapply Forall_impl; [|exact H]. cbn. intros x Hx. unfold hit.
    rewrite (beyond_mono _ _ _ Hb) by lia. reflexivity. }
  clear H Hb. induction HF as [|x l' Hx HF [I1 I2]]; [auto|]. cbn [filter]. rewrite Hx, I1, I2. cbn. auto.
Qed.

Lemma nth_entries : forall nd i, nth_error (entries c nd) i =
  match nth_error (n_sufs nd) i with Some x => Some (key_of c nd x, val_of c nd x) | None => None end.
Proof. intros nd i. unfold entries. rewrite nth_error_map. destruct (nth_error (n_sufs nd) i); reflexivity. Qed.

Lemma remove_loop_ok : forall ex r flt n nd i removed A B, inv ex nd -> entries c nd = A ++ B -> i = length A -> n = length B ->
  sorted B -> exists nd', remove_loop c n nd r flt i removed = Ok (nd', (removed + length (filter (hit r flt) B))%nat) /\
    inv ex nd' /\ entries c nd' = A ++ filter (fun e => negb (hit r flt e)) B.
Proof.
  intros ex r flt. induction n as [|n IH]; intros nd i removed A B I HE Hi Hn HS; cbn [remove_loop].
  - destruct B; [|discriminate]. exists nd. cbn [filter length]. rewrite Nat.add_0_r. auto.
  - destruct B as [|e B]; [discriminate|]. cbn [length] in Hn.
    pose proof (nth_entries nd i) as Hx. rewrite HE, Hi, nth_error_app2, Nat.sub_diag in Hx by lia. cbn [nth_error] in Hx.
    rewrite <- Hi in Hx. destruct (nth_error (n_sufs nd) i) as [x|] eqn:Ex; [|discriminate]. injection Hx as Hx.
    assert (Hk : key_of c nd x = fst e) by (rewrite Hx; reflexivity). assert (Hv : val_of c nd x = snd e) by (rewrite Hx; reflexivity).
    rewrite Hk, Hv. destruct (beyond r (fst e)) eqn:Eb.
    { exists nd. destruct (hit_beyond r flt e B HS Eb) as [F1 F2]. rewrite F1, F2. cbn [length]. rewrite Nat.add_0_r. auto. }
    assert (HI : (i < count nd)%nat) by (rewrite <- entries_length, HE, app_length; cbn; lia).
    assert (Hh : hit r flt e = match flt with None => true | Some f => f (fst e) (snd e) end) by (unfold hit; now rewrite Eb).
    destruct HS as [_ HS]. cbn [filter]. rewrite Hh. destruct (match flt with None => true | Some f => f (fst e) (snd e) end); cbn [negb].
    + destruct (remove_ok ex nd i I HI) as [nd1 [E1 [I1 [N1 _]]]]. rewrite E1. cbn [bind].
      destruct (IH nd1 i (S removed) A B I1) as [nd' [E [I' N']]]; auto; try lia.
      * rewrite N1, HE, Hi, firstn_app, skipn_app, firstn_all, Nat.sub_diag. cbn [firstn]. rewrite app_nil_r. f_equal.
        rewrite skipn_all2 by lia. replace (S (length A) - length A)%nat with 1%nat by lia. reflexivity.
      * exists nd'. rewrite E. cbn [length]. rewrite Nat.add_succ_r. auto.
    + destruct (IH nd (S i) removed (A ++ [e]) B I) as [nd' [E [I' N']]]; auto.
      * now rewrite <- app_assoc.
      * rewrite app_length. cbn. lia.
      * exists nd'. rewrite E, N', <- app_assoc. auto.
Qed.

Lemma filter_same : forall (T : Type) (p q : T -> bool) l, Forall (fun x => p x = q x) l -> filter p l = filter q l.
Proof. intros T p q l H. induction H as [|x l H _ IH]; [reflexivity|]. cbn. now rewrite H, IH. Qed.
Lemma filter_none : forall (T : Type) (p : T -> bool) l, Forall (fun x => p x = false) l -> filter p l = [].
Proof. intros T p l H. induction H as [|x l H _ IH]; [reflexivity|]. cbn. now rewrite H. Qed.
Lemma filter_every : forall (T : Type) (p : T -> bool) l, Forall (fun x => p x = true) l -> filter p l = l.
Proof. intros T p l H. induction H as [|x l H _ IH]; [reflexivity|]. cbn. now rewrite H, IH. Qed.

Lemma multi_remove_ok : forall ex nd r flt, inv ex nd -> sorted (entries c nd) ->
  exists nd', multi_remove c nd r flt = Ok (nd', length (filter (gone r flt) (entries c nd))) /\ inv ex nd' /\
    entries c nd' = filter (fun e => negb (gone r flt e)) (entries c nd).
Proof.
  intros ex nd r flt I HS. unfold multi_remove.
  destruct (position_split nd (first_key r) HS) as [A [B [HE [HL [FA FB]]]]]. rewrite <- HL.
  assert (HB : sorted B) by (rewrite HE in HS; now apply sorted_app in HS).
  destruct (remove_loop_ok ex r flt (count nd - length A) nd (length A) 0 A B I HE eq_refl) as [nd' [E [I' N']]].
  - rewrite <- entries_length, HE, app_length. lia.
  - assumption.
  - assert (GA : Forall (fun e => gone r flt e = false) A).
    { eapply Forall_impl; [|exact FA]. cbn. intros e He. unfold gone. rewrite within_eq. now replace (first_key r <=? fst e)%Z with false by lia. }
    assert (GB : Forall (fun e => hit r flt e = gone r flt e) B).
    { eapply Forall_impl; [|exact FB]. cbn. intros e He. unfold gone, hit. rewrite within_eq. now replace (first_key r <=? fst e)%Z with true by lia. }
    exists nd'. rewrite HE, !filter_app, (filter_none _ (gone r flt) A) by assumption.
    rewrite (filter_every _ (fun e => negb (gone r flt e)) A) by (eapply Forall_impl; [|exact GA]; cbn; intros e ->; reflexivity).
    rewrite <- (filter_same _ (hit r flt) (gone r flt) B) by assumption.
    rewrite <- (filter_same _ (fun e => negb (hit r flt e)) (fun e => negb (gone r flt e)) B)
      by (eapply Forall_impl; [|exact GB]; cbn; intros e ->; reflexivity).
    auto.
Qed.

(** ** Range puts *)

(** A prefix slot that may get another user. *)
Definition slot_ok (nd : node) (i : nat) (slot : option nat) : Prop :=
  forall s, slot = Some s -> n_set nd s = true /\ refs nd s = N.of_nat (uses s (map fst (n_sufs nd))) /\
    ~ In s (map fst (skipn i (n_sufs nd))).

Lemma place_ok : forall ex nd (l1 : list (nat * (N * N))) l2 mid slot first v k, core ex nd (map fst (l1 ++ l2)) ->
  n_sufs nd = l1 ++ mid :: l2 -> (n_tail nd < g_bits g)%nat ->
  g_base g + N.of_nat (S (length l1 + length l2)) * g_ssz g + N.of_nat (S (n_tail nd)) * g_psz g <= g_data g ->
  N.of_nat (length (l1 ++ l2)) < 65535 ->
  (forall s, slot = Some s -> n_set nd s = true /\ refs nd s = N.of_nat (uses s (map fst (l1 ++ l2))) /\ ~ In s (map fst l2)) ->
  vp c (vsh c v (k - first)%Z) = vp c v ->
  exists nd' s, bind (match slot with Some s => Ok (s, nd) | None => add_prefix c g nd k v end)
    (fun x => let (s, nd) := x in
       let v' := vsh c v (k - first)%Z in
       bind (if (fst (snd (n_slot nd s)) =? kp c k) && (snd (snd (n_slot nd s)) =? vp c v')
             then Ok (s, nd) else add_prefix c g nd k v')
         (fun x => let (s, nd) := x in
            bind (checked g (write_suffix c nd (length l1) s k v')) (fun nd => Ok (nd, Some s, Replace)))) = Ok (nd', Some s, Replace) /\
    inv ex nd' /\ slot_ok nd' (S (length l1)) (Some s) /\
    entries c nd' = map (dec (pay nd)) l1 ++ (k, vsh c v (k - first)%Z) :: map (dec (pay nd)) l2.
Proof.
  intros ex nd l1 l2 md slot first v k K HL HT HF HC HS HV.
  set (v' := vsh c v (k - first)%Z) in *.
  assert (HN : forall s nd', n_sufs nd' = l1 ++ (s, suf k v') :: l2 -> (n_tail nd' <= S (n_tail nd))%nat ->
    g_base g + N.of_nat (count nd') * g_ssz g + N.of_nat (n_tail nd') * g_psz g <= g_data g).
  { intros s nd' E1 E2. apply (fits_of nd' (S (length l1 + length l2)) (S (n_tail nd))); auto.
    unfold count. rewrite E1, app_length. cbn. lia. }
  assert (HSK : forall s, skipn (S (length l1)) (l1 ++ (s, suf k v') :: l2) = l2).
  { intros s. rewrite skipn_app, skipn_all2 by lia. replace (S (length l1) - length l1)%nat with 1%nat by lia. reflexivity. }
  assert (HNEW : exists nd' s, bind (add_prefix c g nd k v')
         (fun x => let (s, nd) := x in
            bind (checked g (write_suffix c nd (length l1) s k v')) (fun nd => Ok (nd, Some s, Replace))) = Ok (nd', Some s, Replace) /\
    inv ex nd' /\ slot_ok nd' (S (length l1)) (Some s) /\
    entries c nd' = map (dec (pay nd)) l1 ++ (k, v') :: map (dec (pay nd)) l2).
  { destruct (place_new ex nd l1 l2 md k v' K HL HT) as [s [nd1 [E1 [E2 H]]]]. cbv zeta in H.
    destruct H as [P1 [P2 [P3 [P4 [P5 [P6 P7]]]]]]. rewrite E1. cbn [bind].
    rewrite checked_ok by (eapply HN; [exact P2|exact P6]). cbn [bind]. do 2 eexists. split; [reflexivity|].
    split; [constructor; [rewrite P2; exact P1|eapply HN; [exact P2|exact P6]]|]. split.
    - intros s0 H0. injection H0 as <-. rewrite P2. split; [apply (k_in _ _ _ P1); rewrite map_app; apply in_app_iff; right; now left|].
      split; [|rewrite HSK; intros HI; apply P5; rewrite map_app; apply in_app_iff; now right].
      rewrite P7, map_app. cbn [map fst]. rewrite uses_mid, uses_cons, Nat.eqb_refl.
      destruct (uses s (map fst l1 ++ map fst l2)) eqn:Eu; [reflexivity|]. exfalso. apply P5, uses_in. rewrite map_app. lia.
    - rewrite entries_dec, P2. apply mid_ext; auto. }
  destruct slot as [s|].
  - cbn [bind]. destruct ((fst (snd (n_slot nd s)) =? kp c k) && (snd (snd (n_slot nd s)) =? vp c v')) eqn:Em; [|exact HNEW].
    destruct (HS s eq_refl) as [S1' [S2' S3']]. cbn [bind].
    pose proof (place_old ex nd l1 l2 md s k v' K HL S1' S2' HC) as H. cbv zeta in H. destruct H as [P1 [P2 [P3 [P4 [P5 P6]]]]].
    rewrite checked_ok by (eapply HN; [exact P2|lia]). cbn [bind]. do 2 eexists. split; [reflexivity|].
    split; [constructor; [rewrite P2; exact P1|eapply HN; [exact P2|lia]]|]. split.
    + intros s0 H0. injection H0 as <-. rewrite P6, P5, P2, HSK. auto.
    + rewrite entries_dec, P2, map_app. cbn [map]. rewrite (dec_ext _ (pay nd) l1), (dec_ext _ (pay nd) l2) by (intros; apply P3). do 2 f_equal.
      apply dec_suf. rewrite P3. unfold pay. destruct (n_slot nd s) as [r0 [a b]]. cbn [fst snd] in *. f_equal; lia.
  - assert (HAP : add_prefix c g nd k v = add_prefix c g nd k v') by (unfold add_prefix; now rewrite HV).
    rewrite HAP. destruct (add_prefix c g nd k v') as [[s nd1]|st] eqn:Ea; cbn [bind].
    + destruct (place_new ex nd l1 l2 md k v' K HL HT) as [s1 [nd2 [E1 [E2 _]]]]. rewrite Ea in E1. injection E1 as <- <-.
      rewrite E2. cbn [fst snd]. rewrite !N.eqb_refl. cbn [andb bind] in *. exact HNEW.
    + destruct HNEW as [? [? [? _]]]. discriminate.
Qed.

Lemma app_cut : forall (T : Type) (l m a b : list T), l ++ m = a ++ b -> length l = length a -> l = a /\ m = b.
Proof.
  intros T l m. induction l as [|y l IH]; intros [|z a] b HX H; cbn in *; try discriminate.
  - auto.
  - injection HX as -> HX. destruct (IH a b HX) as [-> ->]; [lia|]. auto.
Qed.

Section Put.
Context (r : krange) (first v : Z) (kd : pkind) (flt : option (Z -> Z -> Z -> decision)).

Lemma get_app_lt : forall A B k, Forall (fun e => fst e < k)%Z A -> get (A ++ B) k = get B k.
Proof.
  intros A B k H. unfold get. induction H as [|e A He _ IH]; [reflexivity|]. cbn [app find].
  replace (fst e =? k)%Z with false by lia. exact IH.
Qed.
Lemma put_app_lt : forall A B k x, Forall (fun e => fst e < k)%Z A -> put_sorted k x (A ++ B) = A ++ put_sorted k x B.
Proof.
  intros A B k x H. induction H as [|e A He _ IH]; [reflexivity|]. cbn [app put_sorted].
  replace (k <? fst e)%Z with false by lia. replace (k =? fst e)%Z with false by lia. now rewrite IH.
Qed.
Lemma drop_ne : forall A k, Forall (fun e => fst e <> k) A -> drop A k = A.
Proof.
  intros A k H. apply filter_every. eapply Forall_impl; [|exact H]. cbn. intros e He. lia.
Qed.
Lemma get_gt : forall B k, Forall (fun e => k < fst e)%Z B -> get B k = None.
Proof.
  intros B k H. unfold get. induction H as [|e B He _ IH]; [reflexivity|]. cbn [find]. replace (fst e =? k)%Z with false by lia. exact IH.
Qed.
Lemma put_gt : forall B k x, Forall (fun e => k < fst e)%Z B -> put_sorted k x B = (k, x) :: B.
Proof.
  intros B k x H. destruct H as [|e B He H]; [reflexivity|]. cbn [put_sorted]. now replace (k <? fst e)%Z with true by lia.
Qed.

Lemma put_one_ok : forall ex nd k i slot A B, inv ex nd -> has_room g nd 1 = true -> entries c nd = A ++ B -> i = length A ->
  sorted (A ++ B) -> Forall (fun e => fst e < k)%Z A -> Forall (fun e => k <= fst e)%Z B -> slot_ok nd i slot ->
  vp c (vsh c v (k - first)%Z) = vp c v -> (kd = Update_ -> In k (map fst B)) ->
  exists nd' slot' d A' B', put_one c g nd kd flt first v k i slot = Ok (nd', slot', d) /\ inv ex nd' /\
    entries c nd' = A' ++ B' /\ A' ++ B' = sput (vsh c) kd flt first v (A ++ B) k /\ sorted (A' ++ B') /\
    Forall (fun e => fst e < k + 1)%Z A' /\ Forall (fun e => k + 1 <= fst e)%Z B' /\
    (match d with Drop => i | _ => S i end) = length A' /\ slot_ok nd' (length A') slot' /\
    (forall k', (k < k')%Z -> In k' (map fst B) -> In k' (map fst B')).
Proof.
  intros ex nd k i slot A B I HR HE Hi HS FA FB HSl HV HU. pose proof I as [K F]. unfold put_one.
  pose proof (has_room_iff ex nd 1 I HR) as [HRF HRT]. specialize (HRT ltac:(lia)).
  pose proof (inv_count ex nd I) as HCn.
  assert (HA1 : Forall (fun e => fst e < k + 1)%Z A) by (eapply Forall_impl; [|exact FA]; cbn; intros; lia).
  assert (HB : (exists old B', B = (k, old) :: B' /\ Forall (fun e => k < fst e)%Z B') \/ Forall (fun e => k < fst e)%Z B).
  { apply sorted_app in HS. destruct HS as [_ [HS _]]. destruct B as [|[k1 old] B']; [now right|]. destruct HS as [H1 _]. inversion FB as [|? ? F1 F2]; subst.
    cbn [fst] in *. destruct (Z.eq_dec k k1) as [<-|Hne]; [left; exists old, B'; auto|right]. constructor; [cbn; lia|].
    eapply Forall_impl; [|exact H1]. cbn. intros; lia. }
  destruct HB as [[old [B' [HB FB']]]|FB'].
  - (* the key is there *)
    assert (HKA : key_at c nd i k = true).
    { unfold key_at. rewrite HE, Hi, nth_error_app2, Nat.sub_diag, HB by lia. cbn. lia. }
    assert (HNT : nth i (entries c nd) (0, 0)%Z = (k, old)).
    { rewrite HE, Hi, app_nth2, Nat.sub_diag, HB by lia. reflexivity. }
    assert (HG : get (A ++ B) k = Some old).
    { rewrite get_app_lt by assumption. rewrite HB. unfold get. cbn [find fst]. rewrite Z.eqb_refl. reflexivity. }
    assert (HB1 : Forall (fun e => k + 1 <= fst e)%Z B') by (eapply Forall_impl; [|exact FB']; cbn; intros; lia).
    assert (HIn : forall k', (k < k')%Z -> In k' (map fst B) -> In k' (map fst B')).
    { intros k' Hk. rewrite HB. cbn. intros [<-|H]; [lia|exact H]. }
    assert (HI : (i < count nd)%nat) by (rewrite <- entries_length, HE, app_length, HB; cbn; lia).
    rewrite HKA, HNT. cbn [snd]. unfold sput. rewrite HG.
    assert (HKEEP : exists nd' slot' d A' B'0, Ok (nd, slot, Keep) = Ok (nd', slot', d) /\ inv ex nd' /\
      entries c nd' = A' ++ B'0 /\ A' ++ B'0 = A ++ B /\ sorted (A' ++ B'0) /\
      Forall (fun e => fst e < k + 1)%Z A' /\ Forall (fun e => k + 1 <= fst e)%Z B'0 /\
      (match d with Drop => i | _ => S i end) = length A' /\ slot_ok nd' (length A') slot' /\
      (forall k', (k < k')%Z -> In k' (map fst B) -> In k' (map fst B'0))).
    { exists nd, slot, Keep, (A ++ [(k, old)]), B'. rewrite <- app_assoc. cbn [app]. rewrite <- HB.
      do 2 (split; [auto|]). split; [assumption|]. do 2 (split; [auto|]). split; [apply Forall_app; split; [assumption|]; constructor; [cbn; lia|constructor]|].
      split; [assumption|]. rewrite app_length. cbn [length]. split; [lia|]. split; [|assumption].
      intros s Hs. destruct (HSl s Hs) as [Q1 [Q2 Q3]]. split; [assumption|]. split; [assumption|]. intros Hin. apply Q3.
      replace (length A + 1)%nat with (S i) in Hin by lia. destruct (nth_error (n_sufs nd) i) as [x|] eqn:Ex;
        [|apply nth_error_None in Ex; unfold count in HI; lia].
      destruct (replace_split _ _ _ _ Ex) as [R1 R2]. rewrite R1, skipn_app, R2, Nat.sub_diag, skipn_all2 by lia. cbn [skipn app map].
      right. exact Hin. }
    assert (HREP : exists nd' slot' d A' B'0,
       bind (match nth_error (n_sufs nd) i with Some x => Ok (deref nd (fst x), Replace) | None => Stop Bad end)
        (fun x => let (nd, d) := x in
      match d with
      | Replace =>
          bind (match slot with Some s => Ok (s, nd) | None => add_prefix c g nd k v end)
            (fun x => let (s, nd) := x in
              let v' := vsh c v (k - first)%Z in
              bind (if (fst (snd (n_slot nd s)) =? kp c k) && (snd (snd (n_slot nd s)) =? vp c v')
                    then Ok (s, nd) else add_prefix c g nd k v')
                (fun x => let (s, nd) := x in
                  bind (checked g (write_suffix c nd i s k v'))
                    (fun nd => Ok (nd, Some s, d))))
      | _ => Ok (nd, slot, d)
      end) = Ok (nd', slot', d) /\ inv ex nd' /\
      entries c nd' = A' ++ B'0 /\ A' ++ B'0 = put_sorted k (vsh c v (k - first)%Z) (A ++ B) /\ sorted (A' ++ B'0) /\
      Forall (fun e => fst e < k + 1)%Z A' /\ Forall (fun e => k + 1 <= fst e)%Z B'0 /\
      (match d with Drop => i | _ => S i end) = length A' /\ slot_ok nd' (length A') slot' /\
      (forall k', (k < k')%Z -> In k' (map fst B) -> In k' (map fst B'0))).
    { destruct (nth_error (n_sufs nd) i) as [x|] eqn:Ex; [|apply nth_error_None in Ex; unfold count in HI; lia].
      cbn [bind]. destruct (replace_split _ _ _ _ Ex) as [R1 R2].
      set (l1 := firstn i (n_sufs nd)) in *. set (l2 := skipn (S i) (n_sufs nd)) in *.
      rewrite R1 in K. apply core_drop in K. destruct (deref_ok ex nd _ (fst x) K) as [K1 [T1 [P1 [S1' Q1]]]].
      assert (HCT : count nd = S (length l1 + length l2)) by (unfold count; rewrite R1, app_length; cbn; lia).
      destruct (place_ok ex (deref nd (fst x)) l1 l2 x slot first v k) as [nd' [s [E [I' [SO N']]]]]; auto.
      - congruence.
      - lia.
      - assert (N.of_nat (S (n_tail (deref nd (fst x)))) * g_psz g <= (N.of_nat (n_tail nd) + 1) * g_psz g) by (apply N.mul_le_mono_r; lia).
        rewrite <- HCT. rewrite N.mul_add_distr_r in HRF. lia.
      - rewrite app_length. lia.
      - intros s Hs. destruct (HSl s Hs) as [Z1 [Z2 Z3]]. rewrite R1, skipn_app, R2, Nat.sub_diag, skipn_all2 in Z3 by lia. cbn in Z3.
        assert (Hne : s <> fst x) by (intros ->; tauto). destruct (Q1 s Hne) as [Y1 Y2]. rewrite Y1, Y2. split; [assumption|].
        split; [|tauto]. rewrite Z2, R1, map_app. cbn [map]. rewrite uses_mid, uses_cons, map_app. replace (fst x =? s)%nat with false by lia. reflexivity.
      - rewrite R2 in E. exists nd', (Some s), Replace, (A ++ [(k, vsh c v (k - first)%Z)]), B'. split; [exact E|].
        split; [exact I'|]. rewrite put_app_lt by assumption. rewrite HB. cbn [put_sorted fst].
        replace (k <? k)%Z with false by lia. rewrite Z.eqb_refl, <- app_assoc. cbn [app].
        assert (HD : map (dec (pay nd)) l1 = A /\ map (dec (pay nd)) l2 = B').
        { assert (HX : map (dec (pay nd)) l1 ++ dec (pay nd) x :: map (dec (pay nd)) l2 = A ++ (k, old) :: B').
          { rewrite <- HB, <- HE, entries_dec, R1 at 1. rewrite map_app. reflexivity. }
          assert (length (map (dec (pay nd)) l1) = length A) by (rewrite map_length; lia).
          destruct (app_cut _ _ _ _ _ HX H) as [C1 C2]. split; [assumption|]. now injection C2. }
        split; [rewrite N', (dec_ext _ (pay nd) l1), (dec_ext _ (pay nd) l2) by (intros; apply P1); destruct HD as [-> ->]; reflexivity|].
        split; [reflexivity|]. split.
        { rewrite HB in HS. apply sorted_app in HS. destruct HS as [W1 [[W2 W3] W4]]. apply sorted_app. split; [assumption|].
          split; [split; assumption|]. eapply Forall_impl; [|exact W4]. cbn. intros e We. inversion We; subst. constructor; assumption. }
        split; [apply Forall_app; split; [assumption|]; constructor; [cbn; lia|constructor]|].
        split; [assumption|]. rewrite app_length. cbn [length]. split; [lia|]. split; [|rewrite HB in HIn; exact HIn].
        rewrite R2 in SO. replace (length A + 1)%nat with (S i) by lia. exact SO. }
    assert (HDROP : exists nd' slot' d A' B'0,
       bind (bind (remove nd i) (fun nd => Ok (nd, Drop)))
        (fun x => let (nd, d) := x in
      match d with
      | Replace =>
          bind (match slot with Some s => Ok (s, nd) | None => add_prefix c g nd k v end)
            (fun x => let (s, nd) := x in
              let v' := vsh c v (k - first)%Z in
              bind (if (fst (snd (n_slot nd s)) =? kp c k) && (snd (snd (n_slot nd s)) =? vp c v')
                    then Ok (s, nd) else add_prefix c g nd k v')
                (fun x => let (s, nd) := x in
                  bind (checked g (write_suffix c nd i s k v'))
                    (fun nd => Ok (nd, Some s, d))))
      | _ => Ok (nd, slot, d)
      end) = Ok (nd', slot', d) /\ inv ex nd' /\
      entries c nd' = A' ++ B'0 /\ A' ++ B'0 = drop (A ++ B) k /\ sorted (A' ++ B'0) /\
      Forall (fun e => fst e < k + 1)%Z A' /\ Forall (fun e => k + 1 <= fst e)%Z B'0 /\
      (match d with Drop => i | _ => S i end) = length A' /\ slot_ok nd' (length A') slot' /\
      (forall k', (k < k')%Z -> In k' (map fst B) -> In k' (map fst B'0))).
    { destruct (remove_ok ex nd i I HI) as [nd1 [E1 [I1 [N1 [P1 [L1 Q1]]]]]]. rewrite E1. cbn [bind].
      exists nd1, slot, Drop, A, B'. split; [reflexivity|]. split; [assumption|].
      assert (HAB : entries c nd1 = A ++ B').
      { rewrite N1, HE, HB, Hi, firstn_app, skipn_app, firstn_all, Nat.sub_diag. cbn [firstn]. rewrite app_nil_r. f_equal.
        rewrite skipn_all2 by lia. replace (S (length A) - length A)%nat with 1%nat by lia. reflexivity. }
      split; [assumption|]. split.
      { unfold drop. rewrite filter_app, HB. cbn [filter fst]. rewrite Z.eqb_refl. cbn [negb]. symmetry. f_equal; apply drop_ne.
        - eapply Forall_impl; [|exact FA]. cbn. intros; lia.
        - eapply Forall_impl; [|exact FB']. cbn. intros; lia. }
      split.
      { rewrite HB in HS. apply sorted_app in HS. destruct HS as [W1 [[W2 W3] W4]]. apply sorted_app. split; [assumption|].
        split; [assumption|]. eapply Forall_impl; [|exact W4]. cbn. intros e We. now inversion We. }
      split; [assumption|]. split; [assumption|]. split; [assumption|]. split; [|assumption].
      rewrite <- Hi. intros s Hs. destruct (HSl s Hs) as [Z1 [Z2 Z3]].
      destruct (nth_error (n_sufs nd) i) as [x|] eqn:Ex; [|apply nth_error_None in Ex; unfold count in HI; lia].
      destruct (replace_split _ _ _ _ Ex) as [R1 R2]. rewrite R1, skipn_app, R2, Nat.sub_diag, skipn_all2 in Z3 by lia. cbn in Z3.
      assert (Hne : fst x <> s) by tauto. destruct (Q1 s) as [Y1 Y2]; [intros y Hy; injection Hy as <-; assumption|].
      rewrite Y1, Y2, Z2, L1. split; [assumption|]. split.
      - rewrite R1 at 1. rewrite !map_app. cbn [map]. rewrite uses_mid, uses_cons. replace (fst x =? s)%nat with false by lia. reflexivity.
      - rewrite skipn_app, R2, Nat.sub_diag, skipn_all2 by lia. cbn. tauto. }
    destruct kd; [exact HKEEP| |]; (destruct flt as [f|]; [destruct (f k old v)|]);
      first [exact HKEEP | exact HREP | exact HDROP].
  - (* the key is not there *)
    assert (HKA : key_at c nd i k = false).
    { unfold key_at. rewrite HE, Hi, nth_error_app2, Nat.sub_diag by lia. destruct FB' as [|e B He _]; [reflexivity|]. cbn. lia. }
    assert (HNU : kd <> Update_).
    { intros Hk. apply HU in Hk. apply in_map_iff in Hk. destruct Hk as [e [He1 He2]]. rewrite Forall_forall in FB'. apply FB' in He2. lia. }
    assert (HG : get (A ++ B) k = None) by (rewrite get_app_lt by assumption; now apply get_gt).
    rewrite HKA. unfold sput. rewrite HG.
    assert (HI : (i <= count nd)%nat) by (rewrite <- entries_length, HE, app_length; lia).
    assert (HSP : sput (vsh c) kd flt first v (A ++ B) k = A ++ (k, vsh c v (k - first)%Z) :: B).
    { unfold sput. rewrite HG. destruct kd; [| |congruence]; rewrite put_app_lt, put_gt by assumption; reflexivity. }
    unfold sput in HSP. rewrite HG in HSP. rewrite HSP.
    assert (HKD : match kd with Update_ => Ok (nd, Keep) | _ => if (count nd <? i)%nat then Stop Bad else Ok (open_suffix nd i, Replace) end =
      Ok (open_suffix nd i, Replace)) by (replace (count nd <? i)%nat with false by lia; destruct kd; congruence).
    rewrite HKD. cbn [bind].
    set (l1 := firstn i (n_sufs nd)) in *. set (l2 := skipn i (n_sufs nd)) in *.
    assert (HL : n_sufs nd = l1 ++ l2) by (symmetry; apply firstn_skipn).
    assert (R2 : length l1 = i) by (apply firstn_length_le; exact HI).
    assert (HCT : count nd = (length l1 + length l2)%nat) by (unfold count; rewrite HL, app_length; lia).
    destruct (place_ok ex (open_suffix nd i) l1 l2 (0%nat, (0, 0)) slot first v k) as [nd' [s [E [I' [SO N']]]]]; auto.
    + rewrite <- HL. eapply core_same; [exact K|..]; reflexivity.
    + change (n_tail (open_suffix nd i)) with (n_tail nd). rewrite <- HCT, !Nat2N.inj_succ. rewrite <- !N.add_1_r.
      change (N.of_nat 1) with 1 in HRF. lia.
    + rewrite app_length. lia.
    + intros s Hs. destruct (HSl s Hs) as [Z1 [Z2 Z3]]. fold l2 in Z3. rewrite HL in Z2. auto.
    + rewrite R2 in E. exists nd', (Some s), Replace, (A ++ [(k, vsh c v (k - first)%Z)]), B. split; [exact E|].
      split; [exact I'|]. rewrite <- app_assoc. cbn [app].
      assert (HD : map (dec (pay nd)) l1 = A /\ map (dec (pay nd)) l2 = B).
      { assert (HX : map (dec (pay nd)) l1 ++ map (dec (pay nd)) l2 = A ++ B) by (rewrite <- HE, entries_dec, HL, map_app; reflexivity).
        assert (H : length (map (dec (pay nd)) l1) = length A) by (rewrite map_length; lia).
        exact (app_cut _ _ _ _ _ HX H). }
      split; [rewrite N'; change (pay (open_suffix nd i)) with (pay nd); destruct HD as [-> ->]; reflexivity|].
      split; [reflexivity|]. split.
      { apply sorted_app in HS. destruct HS as [W1 [W2 W4]]. apply sorted_app. split; [assumption|].
        split; [split; assumption|]. rewrite Forall_forall in W4, FA |- *. intros e He. constructor; [cbn; auto|auto]. }
      split; [apply Forall_app; split; [assumption|]; constructor; [cbn; lia|constructor]|].
      split; [eapply Forall_impl; [|exact FB']; cbn; intros; lia|]. rewrite app_length. cbn [length]. split; [lia|]. split; [|auto].
      rewrite R2 in SO. replace (length A + 1)%nat with (S i) by lia. exact SO.
Qed.

Definition todo (k : Z) : list Z := filter (fun x => negb (beyond r x)) (keys_from k (Z.to_nat (r_end r - k + 1))).

Lemma keys_from_ge : forall n k, Forall (fun x => k <= x)%Z (keys_from k n).
Proof.
  induction n as [|n IH]; intros k; cbn [keys_from]; constructor; [lia|]. eapply Forall_impl; [|apply IH]. cbn. intros; lia.
Qed.
Lemma todo_beyond : forall k, beyond r k = true -> todo k = [].
Proof.
  intros k H. apply filter_none. eapply Forall_impl; [|apply keys_from_ge]. cbn. intros x Hx. now rewrite (beyond_mono _ _ _ H Hx).
Qed.
Lemma todo_next : forall k, beyond r k = false -> todo k = k :: todo (k + 1).
Proof.
  intros k H. unfold todo. assert (Hk : (k <= r_end r)%Z) by (unfold beyond in H; lia).
  replace (Z.to_nat (r_end r - k + 1)) with (S (Z.to_nat (r_end r - (k + 1) + 1))) by lia. cbn [keys_from filter]. now rewrite H.
Qed.
Lemma todo_ge : forall k, Forall (fun x => k <= x)%Z (todo k).
Proof. intros k. apply Forall_forall. intros x Hx. apply filter_In in Hx. pose proof (keys_from_ge (Z.to_nat (r_end r - k + 1)) k) as H. rewrite Forall_forall in H. now apply H. Qed.
Lemma todo_keys : todo (first_key r) = keys_of r.
Proof.
  unfold todo, keys_of, first_key.
  assert (HW : forall k n, (first_key r <= k)%Z -> filter (fun x => negb (beyond r x)) (keys_from k n) = filter (within r) (keys_from k n)).
  { intros k n Hk. apply filter_same. eapply Forall_impl; [|apply keys_from_ge]. cbn. intros x Hx. rewrite within_eq.
    now replace (first_key r <=? x)%Z with true by lia. }
  destruct (r_sincl r) eqn:Es; [apply HW; unfold first_key; rewrite Es; lia|].
  rewrite HW by (unfold first_key; rewrite Es; lia).
  destruct (Z.leb_spec (r_start r) (r_end r)) as [Hl|Hl].
  - replace (Z.to_nat (r_end r - r_start r + 1)) with (S (Z.to_nat (r_end r - (r_start r + 1) + 1))) by lia. cbn [keys_from filter].
    replace (within r (r_start r)) with false; [reflexivity|]. rewrite within_eq. unfold first_key. rewrite Es. lia.
  - replace (Z.to_nat (r_end r - r_start r + 1)) with 0%nat by lia. replace (Z.to_nat (r_end r - (r_start r + 1) + 1)) with 0%nat by lia. reflexivity.
Qed.

Notation puts := (fold_left (sput (vsh c) kd flt first v)).

Lemma put_loop_ok : forall ex fuel nd k i slot A B, inv ex nd -> has_room g nd 1 = true -> entries c nd = A ++ B -> i = length A ->
  sorted (A ++ B) -> Forall (fun e => fst e < k)%Z A -> Forall (fun e => k <= fst e)%Z B -> slot_ok nd i slot ->
  (forall k', (k <= k')%Z -> beyond r k' = false -> vp c (vsh c v (k' - first)%Z) = vp c v) ->
  (kd = Update_ -> forall k', (k <= k')%Z -> beyond r k' = false -> In k' (map fst B)) ->
  (Z.to_nat (r_end r - k + 1) < fuel)%nat ->
  exists nd' st, put_loop c g fuel nd r kd flt first v k i slot = Ok (nd', st) /\ inv ex nd' /\
    match st with
    | Done => entries c nd' = puts (todo k) (A ++ B)
    | NoSpace => False
    | More k' => (k < k')%Z /\ entries c nd' = puts (filter (fun x => (x <? k')%Z) (todo k)) (A ++ B)
    end.
Proof.
  intros ex. induction fuel as [|fuel IH]; intros nd k i slot A B I HR HE Hi HS FA FB HSl HV HU HF; [lia|]. cbn [put_loop].
  destruct (beyond r k) eqn:Eb.
  { exists nd, Done. split; [reflexivity|]. split; [assumption|]. rewrite (todo_beyond k Eb). exact HE. }
  assert (Hk : (k <= r_end r)%Z) by (unfold beyond in Eb; lia).
  destruct (put_one_ok ex nd k i slot A B) as [nd1 [slot1 [d [A1 [B1 [E [I1 [N1 [P1 [S1' [F1 [F2 [L1 [SO IN1]]]]]]]]]]]]]]; auto.
  { apply HV; [lia|assumption]. }
  { intros Hu. apply HU; [assumption|lia|assumption]. }
  rewrite E. cbn [bind]. rewrite (todo_next k Eb). destruct (has_room g nd1 1) eqn:Er.
  - destruct (IH nd1 (k + 1)%Z (match d with Drop => i | _ => S i end) slot1 A1 B1) as [nd' [st [E' [I' H']]]]; auto.
    + now rewrite L1.
    + intros k' Hk'. apply HV. lia.
    + intros Hu k' Hk' Hb. apply IN1; [lia|]. apply HU; [assumption|lia|assumption].
    + lia.
    + exists nd', st. split; [exact E'|]. split; [exact I'|]. destruct st as [| |k']; [|exact H'|].
      * cbn [fold_left]. rewrite <- P1. exact H'.
      * destruct H' as [H1 H2]. split; [lia|]. cbn [filter]. replace (k <? k')%Z with true by lia. cbn [fold_left]. rewrite <- P1. exact H2.
  - exists nd1, (More (k + 1)%Z). split; [reflexivity|]. split; [assumption|]. split; [lia|]. cbn [filter].
    replace (k <? k + 1)%Z with true by lia. rewrite filter_none.
    + cbn [fold_left]. now rewrite N1, P1.
    + eapply Forall_impl; [|apply todo_ge]. cbn. intros; lia.
Qed.

Lemma multi_put_ok : forall ex nd, inv ex nd -> sorted (entries c nd) ->
  (forall k, within r k = true -> vp c (vsh c v (k - first)%Z) = vp c v) ->
  (kd = Update_ -> forall k, within r k = true -> In k (map fst (entries c nd))) ->
  exists nd' st, multi_put c g nd r first v kd flt = Ok (nd', st) /\ inv ex nd' /\
    match st with
    | Done => entries c nd' = puts (keys_of r) (entries c nd)
    | NoSpace => nd' = nd
    | More k' => (r_start r < k')%Z /\ entries c nd' = puts (filter (fun x => (x <? k')%Z) (keys_of r)) (entries c nd)
    end.
Proof.
  intros ex nd I HS HV HU. unfold multi_put. cbv zeta. destruct (has_room g nd 1) eqn:Er; cbn [negb].
  2:{ exists nd, NoSpace. auto. }
  destruct (position_split nd (first_key r) HS) as [A [B [HE [HL [FA FB]]]]].
  assert (HW : forall k', (first_key r <= k')%Z -> beyond r k' = false -> within r k' = true).
  { intros k' H1 H2. rewrite within_eq, H2. cbn. lia. }
  destruct (put_loop_ok ex (S (Z.to_nat (r_end r - first_key r + 1))) nd (first_key r) (position c nd (first_key r)) None A B)
    as [nd' [st [E [I' H']]]]; auto.
  - now rewrite <- HE.
  - intros s. discriminate.
  - intros Hu k' H1 H2. specialize (HU Hu k' (HW k' H1 H2)). rewrite HE, map_app, in_app_iff in HU. destruct HU as [HU|HU]; [|exact HU].
    apply in_map_iff in HU. destruct HU as [e [He1 He2]]. rewrite Forall_forall in FA. apply FA in He2. lia.
  - exists nd', st. split; [exact E|]. split; [exact I'|]. rewrite HE, <- todo_keys. destruct st as [| |k']; [exact H'|destruct H'|].
    destruct H' as [H1 H2]. split; [|exact H2]. unfold first_key in H1. destruct (r_sincl r); lia.
Qed.
End Put.

(** ** Histories *)

Lemma inv_weak : forall ex nd, inv ex nd -> inv false nd.
Proof.
  intros ex nd [[H1 H2 H3 H4 H5 H6 H7] F]. constructor; [constructor; auto; discriminate|exact F].
Qed.
Lemma inv_any : forall ex nd, inv true nd -> inv ex nd.
Proof. intros [|] nd H; [exact H|now apply inv_weak in H]. Qed.

Definition is_update (o : op) : bool := match o with Update _ _ _ _ => true | _ => false end.

Definition rel (ex : bool) (s : state) (ss : sstate) : Prop :=
  forall a, inv ex (s a) /\ entries c (s a) = ss a.

Lemma rel_set : forall ex s ss a nd l, rel ex s ss -> inv ex nd -> entries c nd = l -> rel ex (set s a nd) (sset ss a l).
Proof. intros ex s ss a nd l H I E b. unfold set, sset. destruct (b =? a)%nat; [split; assumption|apply H]. Qed.

Lemma rel_weak : forall ex s ss, rel ex s ss -> rel false s ss.
Proof. intros ex s ss H a. destruct (H a) as [I E]. split; [now apply inv_weak in I|exact E]. Qed.

Lemma step_ok : forall ex s ss o, rel ex s ss -> legal c g s o ->
  (is_update o = true /\ step c g s o = Stop NoRoom) \/
  exists s' x ss', step c g s o = Ok (s', x) /\ sstep (vsh c) ss o x = Some ss' /\
    rel (ex && negb (is_update o)) s' ss'.
Proof.
  intros ex s ss o R L. destruct o as [a i k v|a i k v|a i|a r flt|a r first v kd flt|a b bs limit|a b start size|a b start n|a];
    cbn [legal] in L; cbn [is_update negb]; rewrite ?andb_true_r, ?andb_false_r; cbn [step].
  - right. destruct (R a) as [I E]. rewrite entries_length in L. destruct (insert_ok ex (s a) i k v I L) as [[_ E1]|[nd' [E1 [I1 N1]]]]; rewrite E1; cbn [bind fst snd].
    + do 3 eexists. split; [reflexivity|]. split; [reflexivity|]. intros b. unfold set. destruct (Nat.eqb_spec b a) as [->|]; [split; assumption|apply R].
    + do 3 eexists. split; [reflexivity|]. split; [reflexivity|]. apply rel_set; [assumption|assumption|now rewrite N1, E].
  - destruct (R a) as [I E]. rewrite entries_length in L. destruct (update_ok ex (s a) i k v I L) as [E1|[nd' [E1 [I1 N1]]]]; rewrite E1; cbn [bind].
    + left. auto.
    + right. do 3 eexists. split; [reflexivity|]. split; [reflexivity|]. apply rel_set; [now apply rel_weak in R|assumption|now rewrite N1, E].
  - right. destruct (R a) as [I E]. rewrite entries_length in L. destruct (remove_ok ex (s a) i I L) as [nd' [E1 [I1 [N1 _]]]]. rewrite E1; cbn [bind].
    do 3 eexists. split; [reflexivity|]. split; [reflexivity|]. apply rel_set; [assumption|assumption|now rewrite N1, E].
  - right. destruct (R a) as [I E]. destruct (multi_remove_ok ex (s a) r flt I L) as [nd' [E1 [I1 N1]]]. rewrite E1; cbn [bind fst snd].
    do 3 eexists. split; [reflexivity|]. cbn [sstep]. rewrite <- E, Nat.eqb_refl. split; [reflexivity|]. apply rel_set; assumption.
  - right. destruct (R a) as [I E]. destruct L as [L1 [L2 L3]].
    destruct (multi_put_ok r first v kd flt ex (s a) I L1 L2 L3) as [nd' [st [E1 [I1 N1]]]]. rewrite E1; cbn [bind fst snd].
    destruct st as [| |k']; cbn [sstep].
    + do 3 eexists. split; [reflexivity|]. split; [reflexivity|]. apply rel_set; [assumption|assumption|now rewrite N1, E].
    + do 3 eexists. split; [reflexivity|]. split; [reflexivity|]. subst nd'. intros b. unfold set. destruct (Nat.eqb_spec b a) as [->|]; [split; assumption|apply R].
    + destruct N1 as [N1 N2]. do 3 eexists. split; [reflexivity|]. cbn [sstep]. replace (r_start r <? k')%Z with true by lia. split; [reflexivity|].
      apply rel_set; [assumption|assumption|now rewrite N2, E].
  - right. destruct (R a) as [I E]. destruct (move_ok ex (s a) bs limit I) as [nd' [dst [n [x [E1 [I1 [I2 [M1 [M2 [N1 N2]]]]]]]]]]. rewrite E1; cbn [bind].
    do 3 eexists. split; [reflexivity|]. cbn [sstep]. rewrite <- E, entries_length.
    replace (n <=? count (s a))%nat with true by lia. replace (bs || (n =? Nat.min (N.to_nat limit) (count (s a)))%nat) with true by (destruct bs; [reflexivity|]; rewrite M2 by reflexivity; lia).
    cbn [andb]. split; [reflexivity|]. apply rel_set; [apply rel_set; assumption|now apply inv_any|assumption].
  - right. destruct (R a) as [I E], (R b) as [I' E']. destruct L as [_ L].
    destruct (copy_size_ok ex ex (s a) (s b) start size I I' L) as [nd' [n [x [E1 [I1 [M1 N1]]]]]]. rewrite E1; cbn [bind].
    do 3 eexists. split; [reflexivity|]. cbn [sstep]. rewrite <- E, <- E'. replace (n <=? length (skipn start (entries c (s b))))%nat with true by lia.
    split; [reflexivity|]. apply rel_set; assumption.
  - right. destruct (R a) as [I E], (R b) as [I' E']. destruct L as [_ L].
    destruct (copy_entries_ok ex ex (s a) (s b) start n I I' L) as [nd' [x [E1 [I1 N1]]]]. rewrite E1; cbn [bind].
    do 3 eexists. split; [reflexivity|]. cbn [sstep]. rewrite <- E, <- E', Nat.eqb_refl.
    split; [reflexivity|]. apply rel_set; assumption.
  - right. do 3 eexists. split; [reflexivity|]. split; [reflexivity|]. apply rel_set; [assumption|apply new_inv|reflexivity].
Qed.

Lemma run_ok : forall ops ex s ss, rel ex s ss -> legal_run c g s ops ->
  (existsb is_update ops = true /\ run c g s ops = Stop NoRoom) \/
  exists s' xs ss', run c g s ops = Ok (s', xs) /\ sruns (vsh c) ss ops xs = Some ss' /\
    rel (ex && negb (existsb is_update ops)) s' ss'.
Proof.
  induction ops as [|o ops IH]; intros ex s ss R L; cbn [run existsb].
  - right. exists s, [], ss. rewrite andb_true_r. auto.
  - destruct L as [L1 L2]. destruct (step_ok ex s ss o R L1) as [[U E]|[s1 [x [ss1 [E [ES R1]]]]]].
    + left. rewrite E, U. auto.
    + rewrite E. cbn [bind]. destruct (IH _ s1 ss1 R1 (L2 _ _ E)) as [[U E']|[s2 [xs [ss2 [E' [ES' R2]]]]]].
      * left. rewrite E', U, orb_true_r. auto.
      * right. rewrite E'. cbn [bind fst snd]. do 3 eexists. split; [reflexivity|]. cbn [sruns]. rewrite ES. split; [exact ES'|].
        rewrite negb_orb, andb_assoc. exact R2.
Qed.
End Geom.
