(** Lemmas on nodes with entries of one size. *)
From Coq Require Import NArith List Bool Arith Lia.
From Coq Require Import ZifyBool ZifyNat.
From Verif Require Import FixNodeModel FixNodeSpec.
Import ListNotations.

(** Lists given by a function. *)
Definition tab {A} (f : nat -> A) (n : nat) : list A := map f (seq 0 n).

Lemma tab_length : forall A (f : nat -> A) n, length (tab f n) = n.
Proof. intros. unfold tab. now rewrite map_length, seq_length. Qed.

Lemma tab_nth : forall A (f : nat -> A) n i d, i < n -> nth i (tab f n) d = f i.
Proof.
  intros A f n i d H. unfold tab. rewrite (nth_indep _ d (f 0)) by (rewrite map_length, seq_length; lia).
  rewrite (map_nth f). now rewrite seq_nth.
Qed.

Lemma tab_eq : forall A (f g : nat -> A) n, (forall i, i < n -> f i = g i) -> tab f n = tab g n.
Proof. intros A f g n H. apply map_ext_in. intros i Hi. apply in_seq in Hi. apply H. lia. Qed.

Lemma tab_app : forall A (f g : nat -> A) a b,
  tab f a ++ tab g b = tab (fun i => if i <? a then f i else g (i - a)) (a + b).
Proof.
  intros A f g a b. unfold tab. rewrite seq_app, map_app. f_equal.
  - apply map_ext_in. intros i Hi. apply in_seq in Hi. now replace (i <? a) with true by lia.
  - cbn [Nat.add].
    assert (HS : forall b k, map g (seq k b) =
      map (fun i => if i <? a then f i else g (i - a)) (seq (a + k) b)).
    { clear b. induction b as [|b IH]; intros k; [reflexivity|]. cbn [seq map].
      replace (a + k <? a) with false by lia. replace (a + k - a) with k by lia. f_equal.
      rewrite IH. now rewrite Nat.add_succ_r. }
    rewrite HS. now rewrite Nat.add_0_r.
Qed.

Lemma tab_firstn : forall A (f : nat -> A) n i, i <= n -> firstn i (tab f n) = tab f i.
Proof.
  intros A f n i H. replace n with (i + (n - i)) by lia. unfold tab. rewrite seq_app, map_app.
  rewrite firstn_app, firstn_all2 by (rewrite map_length, seq_length; lia).
  rewrite map_length, seq_length, Nat.sub_diag. cbn [firstn]. now rewrite app_nil_r.
Qed.

Lemma tab_skipn : forall A (f : nat -> A) n i, i <= n ->
  skipn i (tab f n) = tab (fun j => f (i + j)) (n - i).
Proof.
  intros A f n i H. replace (tab f n) with (tab f i ++ tab (fun j => f (i + j)) (n - i)).
  - rewrite skipn_app, skipn_all2 by (rewrite tab_length; lia). rewrite tab_length, Nat.sub_diag. reflexivity.
  - rewrite tab_app. replace (i + (n - i)) with n by lia. apply tab_eq. intros j Hj. cbn beta.
    destruct (j <? i) eqn:E; [reflexivity|]. f_equal. lia.
Qed.

Lemma tab_cons : forall A (x : A) (f : nat -> A) n,
  x :: tab f n = tab (fun i => match i with O => x | S i => f i end) (S n).
Proof. intros. unfold tab. cbn [seq map]. f_equal. rewrite <- seq_shift, map_map. reflexivity. Qed.

Lemma read_tab : forall m off len, read m off len = tab (fun i => m (off + i)) len.
Proof. reflexivity. Qed.

Section Size.
Context (ks vs : nat) (Hpos : 0 < ks + vs).
Notation obj := (obj ks vs).

Definition ent_at (m : mem) (i : nat) : ent := (read m (obj * i) ks, read m (obj * i + ks) vs).

Lemma ent_eq : forall m m' i j, (forall r, r < obj -> m (obj * i + r) = m' (obj * j + r)) ->
  ent_at m i = ent_at m' j.
Proof.
  intros m m' i j H. unfold ent_at, FixNodeModel.obj in *. f_equal; rewrite !read_tab; apply tab_eq; intros r Hr.
  - apply H. lia.
  - rewrite <- !Nat.add_assoc. apply H. lia.
Qed.

Lemma slot : forall i j c r, r < obj ->
  (obj * j <= obj * i + r /\ obj * i + r < obj * j + c * obj) <-> (j <= i /\ i < j + c).
Proof. intros i j c r Hr. nia. Qed.

(** A copy of [c] whole entries. *)
Lemma ent_copy : forall m m' src dst c i,
  ent_at (write m (obj * dst) (read m' (obj * src) (c * obj))) i =
  if (dst <=? i) && (i <? dst + c) then ent_at m' (i - dst + src) else ent_at m i.
Proof.
  intros m m' src dst c i.
  destruct ((dst <=? i) && (i <? dst + c)) eqn:E; apply ent_eq; intros r Hr; unfold write;
    rewrite read_tab, tab_length; pose proof (slot i dst c r Hr) as HS.
  - destruct ((obj * dst <=? obj * i + r) && (obj * i + r <? obj * dst + c * obj)) eqn:E2; [|lia].
    rewrite tab_nth by lia. f_equal.
    assert (obj * i = obj * dst + obj * (i - dst)) by nia. nia.
  - destruct ((obj * dst <=? obj * i + r) && (obj * i + r <? obj * dst + c * obj)) eqn:E2; [lia|reflexivity].
Qed.

Lemma read_write_same : forall m off b, read (write m off b) off (length b) = b.
Proof.
  intros m off b. rewrite read_tab. apply nth_ext with (d := 0%N) (d' := 0%N); [apply tab_length|].
  rewrite tab_length. intros i Hi. rewrite tab_nth by assumption. unfold write.
  destruct ((off <=? off + i) && (off + i <? off + length b)) eqn:E; [|lia]. f_equal. lia.
Qed.

Lemma read_write_len : forall m off b n, length b = n -> read (write m off b) off n = b.
Proof. intros m off b n <-. apply read_write_same. Qed.

Lemma read_write_other : forall m off b o l, o + l <= off \/ off + length b <= o ->
  read (write m off b) o l = read m o l.
Proof.
  intros m off b o l H. rewrite !read_tab. apply tab_eq. intros i Hi. unfold write.
  destruct ((off <=? o + i) && (o + i <? off + length b)) eqn:E; [lia|reflexivity].
Qed.

(** An entry set. *)
Lemma ent_set : forall m j k v i, length k = ks -> length v = vs ->
  ent_at (write (write m (obj * j) k) (obj * j + length k) v) i =
  if i =? j then (k, v) else ent_at m i.
Proof.
  intros m j k v i Hk Hv. destruct (Nat.eqb_spec i j) as [->|Hij].
  - unfold ent_at. f_equal.
    + rewrite read_write_other by lia. now apply read_write_len.
    + rewrite Hk. now apply read_write_len.
  - assert (H : obj * i + obj <= obj * j \/ obj * j + obj <= obj * i) by nia.
    unfold FixNodeModel.obj in *. unfold ent_at, FixNodeModel.obj. f_equal; rewrite !read_write_other by lia; reflexivity.
Qed.

Lemma val_set : forall m j v i, length v = vs ->
  ent_at (write m (obj * j + ks) v) i = if i =? j then (fst (ent_at m j), v) else ent_at m i.
Proof.
  intros m j v i Hv. destruct (Nat.eqb_spec i j) as [->|Hij].
  - unfold ent_at. cbn [fst]. f_equal.
    + now rewrite read_write_other by lia.
    + now apply read_write_len.
  - assert (H : obj * i + obj <= obj * j \/ obj * j + obj <= obj * i) by nia.
    unfold FixNodeModel.obj in *. unfold ent_at, FixNodeModel.obj. f_equal; rewrite !read_write_other by lia; reflexivity.
Qed.

Lemma entries_tab : forall nd, entries ks vs nd = tab (ent_at (f_mem nd)) (f_n nd).
Proof. reflexivity. Qed.

Lemma entries_length : forall nd, length (entries ks vs nd) = f_n nd.
Proof. intros. rewrite entries_tab. apply tab_length. Qed.

Section Data.
Context (data : nat) (leaf : bool).
Notation cap := (data / (ks + vs)).

Lemma cap_fits : forall n, n <= cap <-> obj * n <= data.
Proof.
  intros n. split; intros H.
  - pose proof (Nat.mul_div_le data (ks + vs)). unfold FixNodeModel.obj. nia.
  - apply Nat.div_le_lower_bound; [lia|exact H].
Qed.

Lemma avail : forall nd, f_data nd = data -> f_n nd <= cap ->
  available_entries ks vs nd = cap - f_n nd.
Proof.
  intros nd Hd Hn. unfold available_entries, available_size. rewrite Hd.
  assert (H : cap = (data - f_n nd * obj) / obj + f_n nd).
  { unfold FixNodeModel.obj. rewrite <- Nat.div_add by lia. f_equal. apply cap_fits in Hn.
    unfold FixNodeModel.obj in Hn. nia. }
  lia.
Qed.

(** A node of the right kind with entries [l] and edge [e]. *)
Definition rel1 (nd : node) (x : snode) : Prop :=
  f_data nd = data /\ f_leaf nd = leaf /\ f_n nd <= cap /\ (leaf = true -> f_edge nd = None) /\
  entries ks vs nd = fst x /\ f_edge nd = snd x.

Lemma store_ok : forall nd off b, off + length b <= f_data nd ->
  store nd off b = Ok (with_mem nd (write (f_mem nd) off b)).
Proof. intros nd off b H. unfold store. now replace (off + length b <=? f_data nd) with true by lia. Qed.

Lemma load_ok : forall nd off len, off + len <= f_data nd -> load nd off len = Ok (read (f_mem nd) off len).
Proof. intros nd off b H. unfold load. now replace (off + b <=? f_data nd) with true by lia. Qed.

(** Moving [c] entries: with zero bytes it is not done at all. *)
Definition copied_mem (m m' : mem) (dst src c : nat) (x : nat -> ent) : Prop :=
  forall i, x i = if (dst <=? i) && (i <? dst + c) then ent_at m' (i - dst + src) else ent_at m i.

Lemma copy_ok : forall nd nd' dst src c, f_data nd = data -> f_data nd' = data ->
  obj * (src + c) <= data -> obj * (dst + c) <= data ->
  exists m, (if c * obj =? 0 then Ok nd
             else bind (load nd' (obj * src) (c * obj)) (store nd (obj * dst))) = Ok (with_mem nd m) /\
    forall i, ent_at m i = if (dst <=? i) && (i <? dst + c) then ent_at (f_mem nd') (i - dst + src)
                           else ent_at (f_mem nd) i.
Proof.
  intros nd nd' dst src c Hd Hd' Hs Ht. destruct (c * obj =? 0) eqn:E.
  - exists (f_mem nd). split; [destruct nd; reflexivity|]. intros i.
    assert (c = 0) by (unfold FixNodeModel.obj in *; nia). subst c.
    now replace ((dst <=? i) && (i <? dst + 0)) with false by lia.
  - rewrite load_ok by nia. cbn [bind]. rewrite store_ok by (rewrite read_tab, tab_length; nia).
    eexists. split; [reflexivity|]. intros i. apply ent_copy.
Qed.

Lemma insert_ok : forall nd l e i k v, rel1 nd (l, e) -> shape ks vs k v -> i <= length l ->
  length l < cap ->
  exists nd', insert ks vs nd i k v = Ok nd' /\ rel1 nd' (firstn i l ++ (k, v) :: skipn i l, e).
Proof.
  intros nd l e i k v [R1 [R2 [R3 [R4 [R5 R6]]]]] [Hk Hv] Hi Hl. cbn [fst snd] in *.
  rewrite <- R5, entries_length in Hi, Hl. assert (HF : obj * (f_n nd + 1) <= data) by (apply cap_fits; lia).
  unfold insert. replace (f_n nd <? i) with false by lia. cbv zeta.
  destruct (copy_ok nd nd (i + 1) i (f_n nd - i) R1 R1) as [m [E1 Hm]]; [nia|nia|].
  rewrite E1. cbn [bind]. unfold set_nth_obj. cbn [f_n with_mem]. replace (f_n nd <? i) with false by lia.
  rewrite store_ok by (cbn [f_data with_mem]; rewrite R1, Hk; unfold FixNodeModel.obj in *; nia). cbn [bind].
  rewrite store_ok by (cbn [f_data with_mem]; rewrite R1, Hk, Hv; unfold FixNodeModel.obj in *; nia). cbn [bind].
  eexists. split; [reflexivity|]. unfold rel1. cbn [f_data f_leaf f_n f_edge with_n with_mem fst snd].
  repeat (split; [assumption || lia|]). split; [|assumption].
  rewrite entries_tab. cbn [f_mem f_n with_n with_mem]. rewrite <- R5, entries_tab.
  rewrite tab_firstn, tab_skipn by lia. rewrite tab_cons, tab_app.
  replace (i + S (f_n nd - i)) with (f_n nd + 1) by lia. apply tab_eq. intros j Hj.
  rewrite ent_set by assumption. rewrite Hm.
  destruct (Nat.ltb_spec j i) as [H1|H1].
  - replace (j =? i) with false by lia. now replace ((i + 1 <=? j) && (j <? i + 1 + (f_n nd - i))) with false by lia.
  - destruct (Nat.eqb_spec j i) as [->|H2]; [now rewrite Nat.sub_diag|].
    replace ((i + 1 <=? j) && (j <? i + 1 + (f_n nd - i))) with true by lia.
    destruct (j - i) as [|j'] eqn:E; [lia|]. f_equal. lia.
Qed.

(** Without room the entries pushed up, or the new one, leave the node. *)
Lemma insert_clobber : forall nd l e i k v, rel1 nd (l, e) -> shape ks vs k v -> i <= length l ->
  length l >= cap -> insert ks vs nd i k v = Stop Clobber.
Proof.
  intros nd l e i k v [R1 [R2 [R3 [R4 [R5 R6]]]]] [Hk Hv] Hi Hl. cbn [fst snd] in *.
  rewrite <- R5, entries_length in Hi, Hl.
  assert (HF : ~ obj * (f_n nd + 1) <= data) by (rewrite <- cap_fits; lia).
  assert (HG : obj * f_n nd <= data) by (apply cap_fits; lia).
  unfold insert. replace (f_n nd <? i) with false by lia. cbv zeta.
  destruct ((f_n nd - i) * obj =? 0) eqn:E.
  - assert (i = f_n nd) by (unfold FixNodeModel.obj in *; nia). subst i. cbn [bind].
    unfold set_nth_obj. replace (f_n nd <? f_n nd) with false by lia. unfold store at 1.
    destruct (obj * f_n nd + length k <=? f_data nd) eqn:E1; [|reflexivity]. cbn [bind]. unfold store.
    cbn [f_data with_mem]. rewrite R1, Hk, Hv.
    replace (obj * f_n nd + ks + vs <=? data) with false; [reflexivity|].
    unfold FixNodeModel.obj in *. symmetry. apply Nat.leb_gt. nia.
  - rewrite load_ok by nia. cbn [bind]. unfold store. rewrite read_tab, tab_length, R1.
    replace (obj * (i + 1) + (f_n nd - i) * obj <=? data) with false; [reflexivity|].
    symmetry. apply Nat.leb_gt. nia.
Qed.

Lemma update_ok : forall nd l e i k v, rel1 nd (l, e) -> shape ks vs k v -> i < length l ->
  exists nd', update ks vs nd i k v = Ok nd' /\ rel1 nd' (firstn i l ++ (k, v) :: skipn (S i) l, e).
Proof.
  intros nd l e i k v [R1 [R2 [R3 [R4 [R5 R6]]]]] [Hk Hv] Hi. cbn [fst snd] in *.
  rewrite <- R5, entries_length in Hi. assert (HF : obj * f_n nd <= data) by (apply cap_fits; lia).
  unfold update. replace (i =? f_n nd) with false by lia. unfold set_nth_obj.
  replace (f_n nd <? i) with false by lia.
  rewrite store_ok by (rewrite R1, Hk; unfold FixNodeModel.obj in *; nia). cbn [bind].
  rewrite store_ok by (cbn [f_data with_mem]; rewrite R1, Hk, Hv; unfold FixNodeModel.obj in *; nia).
  eexists. split; [reflexivity|]. unfold rel1. cbn [f_data f_leaf f_n f_edge with_n with_mem fst snd].
  repeat (split; [assumption || lia|]). split; [|assumption].
  rewrite entries_tab. cbn [f_mem f_n with_n with_mem]. rewrite <- R5, entries_tab.
  rewrite tab_firstn, tab_skipn by lia. rewrite tab_cons, tab_app.
  replace (i + S (f_n nd - S i)) with (f_n nd) by lia. apply tab_eq. intros j Hj.
  rewrite ent_set by assumption.
  destruct (Nat.ltb_spec j i) as [H1|H1].
  - now replace (j =? i) with false by lia.
  - destruct (Nat.eqb_spec j i) as [->|H2]; [now rewrite Nat.sub_diag|].
    destruct (j - i) as [|j'] eqn:E; [lia|]. f_equal. lia.
Qed.

Lemma update_value_ok : forall nd l e i v, rel1 nd (l, e) -> length v = vs -> i < length l ->
  exists nd', update_value ks vs nd i v = Ok nd' /\
    rel1 nd' (firstn i l ++ (fst (nth i l ([], [])), v) :: skipn (S i) l, e).
Proof.
  intros nd l e i v [R1 [R2 [R3 [R4 [R5 R6]]]]] Hv Hi. cbn [fst snd] in *.
  rewrite <- R5, entries_length in Hi. assert (HF : obj * f_n nd <= data) by (apply cap_fits; lia).
  unfold update_value, set_nth_value. replace (f_n nd <=? i) with false by lia.
  rewrite store_ok by (rewrite R1, Hv; unfold FixNodeModel.obj in *; nia).
  eexists. split; [reflexivity|]. unfold rel1. cbn [f_data f_leaf f_n f_edge with_n with_mem fst snd].
  repeat (split; [assumption || lia|]). split; [|assumption].
  rewrite entries_tab. cbn [f_mem f_n with_n with_mem]. rewrite <- R5, entries_tab.
  rewrite tab_nth by lia.
  rewrite tab_firstn, tab_skipn by lia. rewrite tab_cons, tab_app.
  replace (i + S (f_n nd - S i)) with (f_n nd) by lia. apply tab_eq. intros j Hj.
  rewrite val_set by assumption.
  destruct (Nat.ltb_spec j i) as [H1|H1].
  - now replace (j =? i) with false by lia.
  - destruct (Nat.eqb_spec j i) as [->|H2]; [now rewrite Nat.sub_diag|].
    destruct (j - i) as [|j'] eqn:E; [lia|]. f_equal. lia.
Qed.

Lemma remove_ok : forall nd l e x y, rel1 nd (l, e) -> x <= S y -> y < length l ->
  exists nd', remove ks vs nd x y = Ok nd' /\ rel1 nd' (firstn x l ++ skipn (S y) l, e).
Proof.
  intros nd l e x y [R1 [R2 [R3 [R4 [R5 R6]]]]] Hx Hy. cbn [fst snd] in *.
  rewrite <- R5, entries_length in Hy. assert (HF : obj * f_n nd <= data) by (apply cap_fits; lia).
  unfold remove. replace ((f_n nd <? x) || (f_n nd <? y) || (S y <? x)) with false by lia.
  replace (y =? f_n nd) with false by lia. cbv zeta.
  destruct (copy_ok nd nd x (y + 1) (f_n nd - y - 1) R1 R1) as [m [E1 Hm]]; [nia|nia|].
  rewrite E1. cbn [bind]. eexists. split; [reflexivity|].
  unfold rel1. cbn [f_data f_leaf f_n f_edge with_n with_mem fst snd].
  repeat (split; [assumption || lia|]). split; [|assumption].
  rewrite entries_tab. cbn [f_mem f_n with_n with_mem]. rewrite <- R5, entries_tab.
  rewrite tab_firstn, tab_skipn by lia. rewrite tab_app.
  replace (x + (f_n nd - S y)) with (f_n nd - (S y - x)) by lia. apply tab_eq. intros j Hj.
  rewrite Hm. destruct (Nat.ltb_spec j x) as [H1|H1].
  - now replace ((x <=? j) && (j <? x + (f_n nd - y - 1))) with false by lia.
  - replace ((x <=? j) && (j <? x + (f_n nd - y - 1))) with true by lia. f_equal. lia.
Qed.

Lemma remove_to_edge_ok : forall nd l e x, rel1 nd (l, e) -> leaf = false -> 1 <= x <= length l ->
  e <> None ->
  exists nd', remove ks vs nd x (f_n nd) = Ok nd' /\
    rel1 nd' (firstn (x - 1) l, Some (snd (nth (x - 1) l ([], [])))).
Proof.
  intros nd l e x [R1 [R2 [R3 [R4 [R5 R6]]]]] Hleaf Hx He. cbn [fst snd] in *.
  rewrite <- R5, entries_length in Hx.
  unfold remove. replace ((f_n nd <? x) || (f_n nd <? f_n nd) || (S (f_n nd) <? x)) with false by lia.
  rewrite Nat.eqb_refl. rewrite R2, Hleaf, R6. destruct e as [e|]; [|congruence].
  destruct x as [|x]; [lia|]. unfold set_nth_value. rewrite R2, Hleaf.
  replace (f_n nd <=? f_n nd) with true by lia. cbn [bind]. eexists. split; [reflexivity|].
  replace (S x - 1) with x by lia.
  unfold rel1. cbn [f_data f_leaf f_n f_edge with_n with_edge fst snd].
  repeat (split; [assumption || lia || congruence|]).
  rewrite entries_tab. cbn [f_mem f_n with_n with_edge]. rewrite <- R5, entries_tab.
  rewrite tab_firstn, tab_nth by lia. split; reflexivity.
Qed.

Lemma move_ok : forall nd other l e l' e' n, rel1 nd (l, e) -> rel1 other (l', e') ->
  exists x y, move_right_by_entries ks vs nd other n = Ok (x, y, moved cap (l, e) (l', e') n) /\
    rel1 x (fst (split_off (l, e) (l', e') (moved cap (l, e) (l', e') n))) /\
    rel1 y (snd (split_off (l, e) (l', e') (moved cap (l, e) (l', e') n))).
Proof.
  intros nd other l e l' e' n [R1 [R2 [R3 [R4 [R5 R6]]]]] [S1 [S2 [S3 [S4 [S5 S6]]]]]. cbn [fst snd] in *.
  assert (Em : moved cap (l, e) (l', e') n =
    Nat.min (Nat.min n (f_n nd)) (available_entries ks vs other)).
  { unfold moved, room. cbn [fst]. rewrite <- R5, <- S5, !entries_length, avail by assumption. reflexivity. }
  rewrite Em. unfold move_right_by_entries. cbv zeta.
  set (c := Nat.min (Nat.min n (f_n nd)) (available_entries ks vs other)) in *.
  assert (Hc : c <= f_n nd) by lia.
  assert (Hcap : c + f_n other <= cap) by (pose proof (avail other S1 S3); lia).
  assert (HF : obj * (c + f_n other) <= data) by (apply cap_fits; lia).
  assert (HG : obj * f_n nd <= data) by (apply cap_fits; lia).
  assert (HX : exists m, (if c * obj =? 0 then Ok other
     else bind (bind (load other (obj * 0) (f_n other * obj)) (store other (obj * c)))
       (fun other => bind (load nd (obj * (f_n nd - c)) (c * obj)) (store other (obj * 0)))) =
     Ok (with_mem other m) /\
     forall i, i < c + f_n other ->
       ent_at m i = if i <? c then ent_at (f_mem nd) (f_n nd - c + i) else ent_at (f_mem other) (i - c)).
  { destruct (c * obj =? 0) eqn:E.
    - assert (Ec : c = 0) by (unfold FixNodeModel.obj in *; nia). exists (f_mem other).
      split; [destruct other; reflexivity|]. intros i Hi.
      replace (i <? c) with false by lia. now replace (i - c) with i by lia.
    - rewrite load_ok by nia. cbn [bind].
      rewrite store_ok by (rewrite read_tab, tab_length, S1; nia). cbn [bind].
      rewrite load_ok by nia. cbn [bind].
      rewrite store_ok by (rewrite read_tab, tab_length; cbn [f_data with_mem]; rewrite S1; nia).
      eexists. split; [reflexivity|]. intros i Hi. cbn [f_mem with_mem]. rewrite ent_copy, ent_copy.
      cbn [Nat.leb andb Nat.add]. destruct (Nat.ltb_spec i c) as [H1|H1].
      + f_equal. lia.
      + replace ((c <=? i) && (i <? c + f_n other)) with true by lia. f_equal. lia. }
  destruct HX as [m [E1 Hm]]. rewrite E1. cbn [bind]. cbn [f_leaf f_edge f_n with_n with_mem].
  unfold split_off. cbn [fst snd]. rewrite R2, R6.
  assert (Ex : entries ks vs (with_n nd (f_n nd - c)) = firstn (length l - c) l).
  { rewrite entries_tab. cbn [f_mem f_n with_n]. rewrite <- R5, entries_length, entries_tab.
    now rewrite tab_firstn by lia. }
  assert (Ey : entries ks vs (with_n (with_mem other m) (f_n other + c)) = skipn (length l - c) l ++ l').
  { rewrite entries_tab. cbn [f_mem f_n with_n with_mem]. rewrite <- R5, <- S5, entries_length, !entries_tab.
    rewrite tab_skipn, tab_app by lia. replace (f_n nd - (f_n nd - c) + f_n other) with (f_n other + c) by lia.
    apply tab_eq. intros i Hi. rewrite Hm by lia. replace (f_n nd - (f_n nd - c)) with c by lia. reflexivity. }
  destruct leaf eqn:Elf; [destruct e as [e|]; [specialize (R4 eq_refl); congruence|]|destruct e as [e|]];
    (eexists; eexists; split; [reflexivity|]; split;
     [unfold rel1; cbn [f_data f_leaf f_n f_edge with_n with_edge with_mem fst snd];
      repeat (split; [assumption || lia || auto|]); auto; split; auto
     |unfold rel1; cbn [f_data f_leaf f_n f_edge with_n with_edge with_mem fst snd];
      repeat (split; [assumption || lia || auto|]); auto; split; auto; congruence]).
Qed.

Lemma copy_entries_ok : forall nd other l e l' e' start n, rel1 nd (l, e) -> rel1 other (l', e') ->
  start <= length l' ->
  exists x, copy_by_entries ks vs nd other start n = Ok (x, copied cap (l, e) (l', e') start n) /\
    rel1 x (append (l, e) (l', e') start (copied cap (l, e) (l', e') start n)).
Proof.
  intros nd other l e l' e' start n [R1 [R2 [R3 [R4 [R5 R6]]]]] [S1 [S2 [S3 [S4 [S5 S6]]]]] Hs. cbn [fst snd] in *.
  assert (Em : copied cap (l, e) (l', e') start n =
    Nat.min (Nat.min n (f_n other - start)) (available_entries ks vs nd)).
  { unfold copied, room. cbn [fst]. rewrite <- R5, <- S5, !entries_length, avail by assumption. reflexivity. }
  rewrite Em. unfold copy_by_entries. rewrite <- S5, entries_length in Hs.
  replace (f_n other <? start) with false by lia. cbv zeta.
  set (c := Nat.min (Nat.min n (f_n other - start)) (available_entries ks vs nd)) in *.
  assert (Hcap : c + f_n nd <= cap) by (pose proof (avail nd R1 R3); lia).
  destruct (copy_ok nd other (f_n nd) start c R1 S1) as [m [E1 Hm]].
  { apply cap_fits. lia. } { apply cap_fits. lia. }
  rewrite E1. cbn [bind]. cbn [f_leaf f_edge f_n with_n with_mem].
  unfold append. cbn [fst snd]. rewrite S2, S6.
  assert (Ex : entries ks vs (with_n (with_mem nd m) (f_n nd + c)) = l ++ firstn c (skipn start l')).
  { rewrite entries_tab. cbn [f_mem f_n with_n with_mem]. rewrite <- R5, <- S5, !entries_tab.
    rewrite tab_skipn, tab_firstn, tab_app by lia. apply tab_eq. intros i Hi. rewrite Hm.
    destruct (Nat.ltb_spec i (f_n nd)) as [H1|H1].
    - now replace ((f_n nd <=? i) && (i <? f_n nd + c)) with false by lia.
    - replace ((f_n nd <=? i) && (i <? f_n nd + c)) with true by lia. f_equal. lia. }
  rewrite <- S5, entries_length. rewrite <- S5 in Ex.
  destruct leaf eqn:Elf; [destruct e' as [e'|]; [specialize (S4 eq_refl); congruence|]|destruct e' as [e'|]];
    [|destruct (start + c =? f_n other) eqn:E2|];
    (eexists; split; [reflexivity|];
     unfold rel1; cbn [f_data f_leaf f_n f_edge with_n with_edge with_mem fst snd];
     repeat (split; [assumption || lia || auto|]); auto; split; auto; congruence).
Qed.

Lemma clear_ok : forall nd x, rel1 nd x -> rel1 (remove_all nd) ([], None).
Proof.
  intros nd [l e] [R1 [R2 [R3 [R4 [R5 R6]]]]]. unfold rel1, remove_all. cbn [f_data f_leaf f_n f_edge with_n with_edge fst snd].
  split; [assumption|]. split; [assumption|]. split; [lia|]. split; [auto|]. split; reflexivity.
Qed.

Definition rel (s : state) (ss : sstate) : Prop := forall a, rel1 (s a) (ss a).

Lemma rel_set : forall s ss a x y, rel s ss -> rel1 x y -> rel (set s a x) (sset ss a y).
Proof. intros s ss a x y H H1 i. unfold set, sset. destruct (i =? a); auto. Qed.

Lemma step_ok : forall s ss o, rel s ss -> legal ks vs cap leaf ss o ->
  exists s', step ks vs s o = Ok (s', snd (sstep ks vs cap ss o)) /\ rel s' (fst (sstep ks vs cap ss o)).
Proof.
  intros s ss o HR HL.
  destruct o as [a i k v|a i k v|a i v|a v|a x y|a x|a|a b n|a b size|a b start n|a b start size];
    pose proof (HR a) as Ra; cbn [step sstep legal] in *; destruct (ss a) as [l e] eqn:Ea; cbn [fst snd] in *.
  - destruct HL as [H1 [H2 H3]]. destruct (insert_ok _ _ _ i k v Ra H1 H2 H3) as [nd [E J]].
    rewrite E. cbn [put1 bind]. eexists. split; [reflexivity|]. apply rel_set; assumption.
  - destruct HL as [H1 H2]. destruct (update_ok _ _ _ i k v Ra H1 H2) as [nd [E J]].
    rewrite E. cbn [put1 bind]. eexists. split; [reflexivity|]. apply rel_set; assumption.
  - destruct HL as [H1 H2]. destruct (update_value_ok _ _ _ i v Ra H1 H2) as [nd [E J]].
    rewrite E. cbn [put1 bind]. eexists. split; [reflexivity|]. apply rel_set; assumption.
  - destruct Ra as [R1 [R2 [R3 [R4 [R5 R6]]]]]. cbn [fst snd] in *.
    unfold update_value, set_nth_value. replace (f_n (s a) <=? f_n (s a)) with true by lia.
    rewrite R2, HL. cbn [put1 bind]. eexists. split; [reflexivity|]. apply rel_set; [assumption|].
    unfold rel1. cbn [f_data f_leaf f_n f_edge with_edge fst snd].
    split; [assumption|]. split; [assumption|]. split; [assumption|]. split; [congruence|]. split; [exact R5|reflexivity].
  - destruct HL as [H1 H2]. destruct (remove_ok _ _ _ x y Ra H1 H2) as [nd [E J]].
    rewrite E. cbn [put1 bind]. eexists. split; [reflexivity|]. apply rel_set; assumption.
  - destruct HL as [H1 [H2 H3]]. destruct (remove_to_edge_ok _ _ _ x Ra H1 H2 H3) as [nd [E J]].
    rewrite E. cbn [put1 bind]. eexists. split; [reflexivity|]. apply rel_set; assumption.
  - eexists. split; [reflexivity|]. apply rel_set; [assumption|]. eapply clear_ok. eassumption.
  - pose proof (HR b) as Rb. destruct (ss b) as [l' e'] eqn:Eb.
    destruct (move_ok _ _ _ _ _ _ n Ra Rb) as [x [y [E [J1 J2]]]]. rewrite E. cbn [bind].
    destruct (split_off (l, e) (l', e') (moved cap (l, e) (l', e') n)) as [p q]. cbn [fst snd] in *.
    eexists. split; [reflexivity|]. apply rel_set; [apply rel_set|]; assumption.
  - pose proof (HR b) as Rb. destruct (ss b) as [l' e'] eqn:Eb. unfold move_right_by_size.
    change (size / obj) with (size / (ks + vs)).
    destruct (move_ok _ _ _ _ _ _ (size / (ks + vs)) Ra Rb) as [x [y [E [J1 J2]]]]. rewrite E. cbn [bind].
    destruct (split_off (l, e) (l', e') (moved cap (l, e) (l', e') (size / (ks + vs)))) as [p q]. cbn [fst snd] in *.
    eexists. split; [reflexivity|]. apply rel_set; [apply rel_set|]; assumption.
  - destruct HL as [H1 H2]. pose proof (HR b) as Rb. destruct (ss b) as [l' e'] eqn:Eb. cbn [fst] in *.
    destruct (copy_entries_ok _ _ _ _ _ _ start n Ra Rb H2) as [x [E J]]. rewrite E. cbn [bind].
    eexists. split; [reflexivity|]. apply rel_set; assumption.
  - destruct HL as [H1 H2]. pose proof (HR b) as Rb. destruct (ss b) as [l' e'] eqn:Eb. cbn [fst] in *.
    unfold copy_by_size.
    destruct (copy_entries_ok _ _ _ _ _ _ start (num_entries_by_size ks vs (s b) start size) Ra Rb H2) as [x [E J]].
    assert (Ec : copied cap (l, e) (l', e') start (num_entries_by_size ks vs (s b) start size) =
      copied cap (l, e) (l', e') start (size / (ks + vs))).
    { unfold copied, num_entries_by_size. cbn [fst]. destruct Rb as [_ [_ [_ [_ [S5 _]]]]]. cbn [fst] in S5.
      rewrite <- S5, entries_length. unfold FixNodeModel.obj. lia. }
    rewrite Ec in *. rewrite E. cbn [bind]. eexists. split; [reflexivity|]. apply rel_set; assumption.
Qed.

Lemma run_ok : forall ops s ss, rel s ss -> legal_run ks vs cap leaf ss ops ->
  exists s', run ks vs s ops = Ok (s', snd (srun ks vs cap ss ops)) /\ rel s' (fst (srun ks vs cap ss ops)).
Proof.
  induction ops as [|o ops IH]; intros s ss HR HL; cbn [run srun legal_run] in *.
  - exists s. split; [reflexivity|assumption].
  - destruct HL as [H1 H2]. destruct (step_ok s ss o HR H1) as [s1 [E1 R1]].
    destruct (sstep ks vs cap ss o) as [ss1 x]. cbn [fst snd] in *. rewrite E1. cbn [bind].
    destruct (IH s1 ss1 R1 H2) as [s2 [E2 R2]]. rewrite E2. cbn [bind].
    destruct (srun ks vs cap ss1 ops) as [ss2 xs]. cbn [fst snd] in *. eauto.
Qed.

Lemma new_rel : forall m, rel (fun _ => new_node data leaf m) (fun _ => ([], None)).
Proof.
  intros m a. unfold rel1, new_node. cbn [f_data f_leaf f_n f_edge fst snd].
  split; [reflexivity|]. split; [reflexivity|]. split; [apply Nat.le_0_l|]. split; [auto|]. split; reflexivity.
Qed.

End Data.
End Size.
