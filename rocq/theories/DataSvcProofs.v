(** * Scattered reads and writes: proofs. *)
From Coq Require Import NArith List Bool Permutation Lia Arith.
From Verif Require Import Base DataSvcModel DataSvcSpec.
Import ListNotations.
Open Scope N_scope.

Lemma nseq_length b n : length (nseq b n) = N.to_nat n.
Proof. unfold nseq. now rewrite map_length, seq_length. Qed.
Lemma nseq_in b n x : In x (nseq b n) <-> b <= x < b + n.
Proof.
  unfold nseq. rewrite in_map_iff. split.
  - intros (i & <- & H). apply in_seq in H. lia.
  - intro H. exists (N.to_nat (x - b)). split; [lia|]. apply in_seq. lia.
Qed.
Lemma nseq_nodup b n : NoDup (nseq b n).
Proof. unfold nseq. apply FinFun.Injective_map_NoDup; [intros i j H; lia|apply seq_NoDup]. Qed.
Lemma nseq_app b n m : nseq b (n + m) = nseq b n ++ nseq (b + n) m.
Proof.
  unfold nseq. rewrite N2Nat.inj_add, seq_app, map_app. f_equal. rewrite Nat.add_0_l.
  replace (N.to_nat n) with (N.to_nat n + 0)%nat by lia. generalize (N.to_nat m) as k, 0%nat as a. intros k. induction k as [|k IH]; intro a; [reflexivity|]. cbn [seq map]. f_equal; [lia|]. rewrite <- IH. f_equal. f_equal. lia.
Qed.
Lemma nseq_0 b : nseq b 0 = [].
Proof. reflexivity. Qed.
Lemma nseq_1 b : nseq b 1 = [b].
Proof. unfold nseq. change (N.to_nat 1) with 1%nat. cbn [seq map]. f_equal. lia. Qed.
Lemma nseq_cons b n : nseq b (1 + n) = b :: nseq (b + 1) n.
Proof. now rewrite nseq_app, nseq_1. Qed.
Lemma nseq_shift s b n : map (fun i => s + i) (nseq b n) = nseq (s + b) n.
Proof. unfold nseq. rewrite map_map. apply map_ext. intro. lia. Qed.

Lemma gather_bytes m l : gather m l = bytes m l.
Proof. unfold gather, bytes, addrs. induction l as [|x l IH]; cbn; [reflexivity|]. now rewrite map_app, IH. Qed.
Lemma addrs_len l : N.of_nat (length (addrs l)) = total l.
Proof. unfold addrs. induction l as [|x l IH]; [reflexivity|]. cbn [flat_map total fold_right]. rewrite app_length, nseq_length. fold (total l). rewrite <- IH. lia. Qed.
Lemma next_split sz l : let (t, q) := next_iovs sz l in addrs l = addrs t ++ addrs q /\ total t = N.min sz (total l).
Proof.
  revert sz. induction l as [|[b n] l IH]; intro sz; [cbn; split; [reflexivity|lia]|]. cbn [next_iovs]. destruct (N.eqb_spec sz 0) as [->|H0]; [cbn; split; [reflexivity|lia]|]. destruct (N.ltb_spec sz n) as [H|H].
  - cbn [addrs flat_map fst snd total fold_right]. split; [|lia]. rewrite app_nil_r. replace n with (sz + (n - sz)) at 1 by lia. rewrite nseq_app. now rewrite <- app_assoc.
  - specialize (IH (sz - n)). destruct (next_iovs (sz - n) l) as [t q]. destruct IH as [I1 I2]. cbn [addrs flat_map fst snd total fold_right]. fold (addrs l) (addrs t) (total l) (total t). rewrite I1, I2, <- app_assoc. split; [reflexivity|lia].
Qed.

(** ** Cells *)
Section Cells.
  Context {K : Type} (put : (K -> N) -> K -> N -> (K -> N)).
  Hypothesis put_same : forall f a v, put f a v a = v.
  Hypothesis put_other : forall f a v a', a' <> a -> put f a v a' = f a'.
  Definition cells (l : list (K * N)) (f : K -> N) : K -> N := fold_left (fun f c => put f (fst c) (snd c)) l f.
  Lemma cells_out l : forall f a, ~ In a (map fst l) -> cells l f a = f a.
  Proof.
    induction l as [|[k v] l IH]; intros f a H; [reflexivity|]. cbn in *. fold (cells l (put f k v)). rewrite IH by tauto. apply put_other. intros ->. tauto.
  Qed.
  Lemma cells_in l : forall f a v, NoDup (map fst l) -> In (a, v) l -> cells l f a = v.
  Proof.
    induction l as [|[k w] l IH]; intros f a v HN H; [destruct H|]. cbn in HN. inversion HN; subst. cbn. fold (cells l (put f k w)). destruct H as [H|H]; [injection H as -> ->|now apply IH]. rewrite cells_out by assumption. apply put_same.
  Qed.
  Lemma cells_app l l' f : cells (l ++ l') f = cells l' (cells l f).
  Proof. unfold cells. apply fold_left_app. Qed.
End Cells.
Definition dput (d : disk) (a : N * N) (v : N) : disk := set1 d a v.
Lemma dput_same d a v : set1 d a v a = v.
Proof. unfold set1. now rewrite !N.eqb_refl. Qed.
Lemma dput_other d a v a' : a' <> a -> set1 d a v a' = d a'.
Proof. intro H. unfold set1. destruct (N.eqb_spec (fst a') (fst a)), (N.eqb_spec (snd a') (snd a)); cbn; try reflexivity. elim H. destruct a, a'; cbn in *; congruence. Qed.
Lemma mput_same (m : mem) a v : set_mem m a v a = v.
Proof. unfold set_mem. now rewrite N.eqb_refl. Qed.
Lemma mput_other (m : mem) a v a' : a' <> a -> set_mem m a v a' = m a'.
Proof. intro H. unfold set_mem. destruct (N.eqb_spec a' a); [contradiction|reflexivity]. Qed.

Definition range (r : req) : list (N * N) := let '(p, off, l) := r in map (pair p) (nseq off (total l)).
Definition rpairs (r : req) : list ((N * N) * N) := combine (range r) (addrs (snd r)).
Definition wcells (m : mem) (r : req) : list ((N * N) * N) := map (fun x => (fst x, m (snd x))) (rpairs r).
Definition rcells (d : disk) (r : req) : list (N * N) := map (fun x => (snd x, d (fst x))) (rpairs r).
Lemma range_len r : length (range r) = length (addrs (snd r)).
Proof. destruct r as [[p off] l]. cbn [range snd]. rewrite map_length, nseq_length, <- addrs_len. lia. Qed.
Lemma combine_mapr {A B C} (f : B -> C) (l : list A) : forall l', combine l (map f l') = map (fun x => (fst x, f (snd x))) (combine l l').
Proof. induction l as [|a l IH]; intros [|b l']; cbn; try reflexivity. now rewrite IH. Qed.
Lemma combine_swap {A B} (l : list A) : forall (l' : list B), combine l' l = map (fun x => (snd x, fst x)) (combine l l').
Proof. induction l as [|a l IH]; intros [|b l']; cbn; try reflexivity. now rewrite IH. Qed.
Lemma combine_app {A B} (a c : list A) : forall (b d : list B), length a = length b -> combine (a ++ c) (b ++ d) = combine a b ++ combine c d.
Proof. induction a as [|x a IH]; intros [|y b] d H; try discriminate; cbn; [reflexivity|]. rewrite IH by (cbn in H; lia). reflexivity. Qed.
Lemma dwrite_cells p bs : forall d off, dwrite d p off bs = cells set1 (combine (map (pair p) (nseq off (N.of_nat (length bs)))) bs) d.
Proof.
  induction bs as [|v bs IH]; intros d off; [reflexivity|]. cbn [dwrite]. rewrite IH. replace (N.of_nat (length (v :: bs))) with (1 + N.of_nat (length bs)) by (cbn [length]; lia). rewrite nseq_cons. reflexivity.
Qed.
Lemma do_write_cells m d r : do_write m d r = cells set1 (wcells m r) d.
Proof.
  destruct r as [[p off] l]. unfold do_write, wcells, rpairs. rewrite dwrite_cells, gather_bytes. unfold bytes. rewrite map_length, addrs_len. cbn [range snd]. now rewrite <- combine_mapr.
Qed.
Lemma mwrite_cells bs : forall m a, mwrite m a bs = cells set_mem (combine (nseq a (N.of_nat (length bs))) bs) m.
Proof.
  induction bs as [|v bs IH]; intros m a; [reflexivity|]. cbn [mwrite]. rewrite IH. replace (N.of_nat (length (v :: bs))) with (1 + N.of_nat (length bs)) by (cbn [length]; lia). rewrite nseq_cons. reflexivity.
Qed.
Lemma scatter_cells l : forall m bs, length bs = length (addrs l) -> scatter m l bs = cells set_mem (combine (addrs l) bs) m.
Proof.
  induction l as [|[b n] l IH]; intros m bs H; [reflexivity|]. cbn [scatter]. cbn [addrs flat_map fst snd] in *. fold (addrs l) in *. rewrite app_length, nseq_length in H. rewrite IH by (rewrite skipn_length; lia).
  rewrite mwrite_cells, firstn_length. replace (N.of_nat (Nat.min (N.to_nat n) (length bs))) with n by lia. rewrite <- cells_app. f_equal. rewrite <- combine_app by (rewrite nseq_length, firstn_length; lia). now rewrite firstn_skipn.
Qed.
Lemma combine_mapl {A B C} (f : A -> C) (l : list A) : forall (l' : list B), combine l' (map f l) = map (fun x => (snd x, f (fst x))) (combine l l').
Proof. induction l as [|a l IH]; intros [|b l']; cbn; try reflexivity. now rewrite IH. Qed.
Lemma do_read_cells d m r : do_read d m r = cells set_mem (rcells d r) m.
Proof.
  destruct r as [[p off] l]. unfold do_read, rcells, rpairs, dread. rewrite scatter_cells by (rewrite map_length, nseq_length, <- addrs_len; lia). f_equal. cbn [range snd]. rewrite <- (map_map (pair p) d). apply combine_mapl.
Qed.

(** ** Where the bytes of an id are *)
Definition place (e : env) (x : piece) : list (N * N) := match to_dev e x with Some (p, o) => map (pair p) (nseq o (snd x * e_bs e)) | None => [] end.
Definition there (e : env) (x : piece) : Prop := e_chunk e (fst (fst x)) <> None.
Definition cnt (xs : list piece) : N := fold_right (fun x n => snd x + n) 0 xs.
Lemma cnt_app a b : cnt (a ++ b) = cnt a + cnt b.
Proof. unfold cnt. induction a as [|x a IH]; cbn [app fold_right]; [lia|]. rewrite IH. lia. Qed.
Lemma blocks_len xs : N.of_nat (length (flat_map blocks xs)) = cnt xs.
Proof. unfold cnt. induction xs as [|[[c b] k] xs IH]; [reflexivity|]. cbn [flat_map fold_right snd blocks]. rewrite app_length, map_length, nseq_length, <- IH. lia. Qed.
Lemma there_dev e x : there e x -> exists p o, to_dev e x = Some (p, o).
Proof. destruct x as [[c b] k]. unfold there, to_dev. cbn. destruct (e_chunk e c) as [[p s]|]; [eauto|congruence]. Qed.
Lemma place_len e x : there e x -> N.of_nat (length (place e x)) = snd x * e_bs e.
Proof. intro H. destruct (there_dev e x H) as (p & o & E). unfold place. rewrite E, map_length, nseq_length. lia. Qed.
Lemma vreq_pairs e x l : there e x -> total l = snd x * e_bs e -> exists r, vreq e x l = Some r /\ rpairs r = combine (place e x) (addrs l).
Proof. intros H HT. destruct (there_dev e x H) as (p & o & E). unfold vreq, place, rpairs. rewrite E. eexists. split; [reflexivity|]. cbn [range snd]. now rewrite HT. Qed.
Lemma loop_pairs e xs : forall l, Forall (there e) xs -> total l = cnt xs * e_bs e -> all_ok (sg_loop e l xs) = true /\ flat_map rpairs (issued (sg_loop e l xs)) = combine (flat_map (place e) xs) (addrs l).
Proof.
  induction xs as [|x xs IH]; intros l HF HT; [split; reflexivity|]. inversion HF as [|? ? HX HXS]; subst. cbn [sg_loop]. pose proof (next_split (snd x * e_bs e) l) as HS. destruct (next_iovs (snd x * e_bs e) l) as [t q]. destruct HS as [S1 S2].
  cbn [cnt fold_right] in HT. fold (cnt xs) in HT. assert (HT1 : total t = snd x * e_bs e) by nia. assert (HT2 : total q = cnt xs * e_bs e). { pose proof (f_equal (@length N) S1) as HL. rewrite app_length in HL. pose proof (addrs_len l). pose proof (addrs_len t). pose proof (addrs_len q). nia. }
  destruct (vreq_pairs e x t HX HT1) as (r & E & HR). destruct (IH q HXS HT2) as [I1 I2]. rewrite E. split; [exact I1|]. cbn [issued flat_map app]. fold (issued (sg_loop e q xs)). rewrite HR, I2, S1. symmetry. apply combine_app. pose proof (place_len e x HX). pose proof (addrs_len t). lia.
Qed.
Lemma sg_pairs e xs l : Forall (there e) xs -> total l = cnt xs * e_bs e -> all_ok (sg_reqs e l xs) = true /\ flat_map rpairs (issued (sg_reqs e l xs)) = combine (flat_map (place e) xs) (addrs l).
Proof.
  intros HF HT. unfold sg_reqs. destruct xs as [|x [|y xs]]; [split; reflexivity| |now apply loop_pairs]. inversion HF as [|? ? HX _]; subst. cbn [cnt fold_right] in HT. destruct (vreq_pairs e x l HX) as (r & E & HR); [lia|]. rewrite E. split; [reflexivity|]. cbn. now rewrite !app_nil_r.
Qed.
Lemma buf_loop_pairs e xs : forall b, Forall (there e) xs -> all_ok (buf_loop e b xs) = true /\ flat_map rpairs (issued (buf_loop e b xs)) = combine (flat_map (place e) xs) (nseq b (cnt xs * e_bs e)).
Proof.
  induction xs as [|x xs IH]; intros b HF; [split; reflexivity|]. inversion HF as [|? ? HX HXS]; subst. cbn [buf_loop]. destruct (vreq_pairs e x [(b, snd x * e_bs e)] HX) as (r & E & HR); [cbn; lia|]. destruct (IH (b + snd x * e_bs e) HXS) as [I1 I2]. rewrite E. split; [exact I1|].
  cbn [issued flat_map app]. fold (issued (buf_loop e (b + snd x * e_bs e) xs)). rewrite HR, I2. cbn [cnt fold_right]. fold (cnt xs). rewrite N.mul_add_distr_r, nseq_app. symmetry. unfold addrs. cbn [flat_map fst snd]. rewrite app_nil_r. apply combine_app. pose proof (place_len e x HX). rewrite nseq_length. lia.
Qed.
Lemma buf_pairs e xs b sz : Forall (there e) xs -> sz = cnt xs * e_bs e -> all_ok (buf_reqs e b sz xs) = true /\ flat_map rpairs (issued (buf_reqs e b sz xs)) = combine (flat_map (place e) xs) (nseq b sz).
Proof.
  intros HF HT. unfold buf_reqs. destruct xs as [|x [|y xs]]; [split; reflexivity| |rewrite HT; now apply buf_loop_pairs]. inversion HF as [|? ? HX _]; subst. cbn [cnt fold_right]. destruct (vreq_pairs e x [(b, cnt [x] * e_bs e)] HX) as (r & E & HR); [cbn; lia|]. cbn [cnt fold_right] in *. rewrite E. split; [reflexivity|].
  cbn [issued flat_map app]. rewrite HR, !app_nil_r. unfold addrs. cbn [flat_map fst snd]. now rewrite app_nil_r.
Qed.
Lemma all_ok_app a b : all_ok (a ++ b) = all_ok a && all_ok b.
Proof. apply forallb_app. Qed.
Lemma issued_app a b : issued (a ++ b) = issued a ++ issued b.
Proof. apply flat_map_app. Qed.
Lemma places_len e xs : Forall (there e) xs -> N.of_nat (length (flat_map (place e) xs)) = cnt xs * e_bs e.
Proof. induction 1 as [|x xs HX HF IH]; [reflexivity|]. cbn [flat_map cnt fold_right]. fold (cnt xs). rewrite app_length, N.mul_add_distr_r, <- IH, <- (place_len e x HX). lia. Qed.
Lemma vec_pairs e ids : forall l, Forall (there e) (concat ids) -> Forall (fun xs => N.of_nat (length (flat_map blocks xs)) < 65536) ids -> total l = cnt (concat ids) * e_bs e ->
  all_ok (vec_reqs e l ids) = true /\ flat_map rpairs (issued (vec_reqs e l ids)) = combine (flat_map (place e) (concat ids)) (addrs l).
Proof.
  induction ids as [|xs ids IH]; intros l HF HB HT; [split; reflexivity|]. inversion HB as [|? ? HB1 HB2]; subst. cbn [concat] in *. apply Forall_app in HF. destruct HF as [HF1 HF2]. rewrite cnt_app in HT. cbn [vec_reqs].
  assert (HC : blk_count16 xs = cnt xs). { unfold blk_count16. fold (cnt xs). rewrite blocks_len in HB1. apply N.mod_small. exact HB1. } rewrite HC. pose proof (next_split (cnt xs * e_bs e) l) as HS. destruct (next_iovs (cnt xs * e_bs e) l) as [t q]. destruct HS as [S1 S2].
  assert (HT1 : total t = cnt xs * e_bs e) by nia. assert (HT2 : total q = cnt (concat ids) * e_bs e). { pose proof (f_equal (@length N) S1) as HL. rewrite app_length in HL. pose proof (addrs_len l). pose proof (addrs_len t). pose proof (addrs_len q). nia. }
  destruct (sg_pairs e xs t HF1 HT1) as [A1 A2]. destruct (IH q HF2 HB2 HT2) as [B1 B2]. rewrite all_ok_app, A1, B1, issued_app, !flat_map_app, A2, B2, S1. split; [reflexivity|]. symmetry. apply combine_app. pose proof (places_len e xs HF1). pose proof (addrs_len t). lia.
Qed.
Lemma call_pairs e c : Forall (there e) (call_pieces c) -> call_ok e c ->
  all_ok (call_reqs e c) = true /\ flat_map rpairs (issued (call_reqs e c)) = combine (flat_map (place e) (call_pieces c)) (addrs (call_iovs c)) /\ length (flat_map (place e) (call_pieces c)) = length (addrs (call_iovs c)).
Proof.
  intros HF [HL HC]. unfold id_bytes in HL. rewrite blocks_len in HL. assert (HLEN : length (flat_map (place e) (call_pieces c)) = length (addrs (call_iovs c))) by (pose proof (places_len e _ HF); lia). rewrite addrs_len in HL.
  destruct c as [l xs|b sz xs|l ids]; cbn [call_reqs call_iovs call_pieces] in *.
  - destruct (sg_pairs e xs l HF) as [A B]; [lia|auto].
  - cbn in HL. destruct (buf_pairs e xs b sz HF) as [A B]; [lia|]. split; [exact A|]. split; [|exact HLEN]. rewrite B. unfold addrs. cbn [flat_map fst snd]. now rewrite app_nil_r.
  - destruct (vec_pairs e ids l HF HC) as [A B]; [lia|auto].
Qed.

Definition bplace (e : env) (x : N * N) : list (N * N) := match e_chunk e (fst x) with Some (p, s) => map (fun i => (p, s + snd x * e_bs e + i)) (nseq 0 (e_bs e)) | None => [] end.
Lemma block_place e d x : block_at e d x = map d (bplace e x).
Proof. unfold block_at, bplace. destruct (e_chunk e (fst x)) as [[p s]|]; [|reflexivity]. now rewrite map_map. Qed.
Lemma place_blocks e x : place e x = flat_map (bplace e) (blocks x).
Proof.
  destruct x as [[c b] k]. unfold place, to_dev, blocks. cbn [snd]. destruct (e_chunk e c) as [[p s]|] eqn:E.
  - revert b. induction k as [|k IH] using N.peano_ind; intro b; [reflexivity|]. replace (N.succ k) with (1 + k) by lia. rewrite nseq_cons. cbn [map flat_map]. rewrite <- IH. unfold bplace at 1. cbn [fst snd]. rewrite E. replace ((1 + k) * e_bs e) with (e_bs e + k * e_bs e) by lia. rewrite nseq_app, map_app. f_equal.
    + rewrite <- (map_map (fun i => s + b * e_bs e + i) (pair p)), nseq_shift. f_equal. f_equal. lia.
    + f_equal. f_equal. lia.
  - symmetry. induction (nseq b k) as [|y l IH]; [reflexivity|]. cbn [map flat_map]. rewrite IH. unfold bplace. cbn [fst]. now rewrite E.
Qed.
Lemma places_blocks e xs : flat_map (place e) xs = flat_map (bplace e) (flat_map blocks xs).
Proof. induction xs as [|x xs IH]; [reflexivity|]. cbn [flat_map]. now rewrite flat_map_app, <- IH, place_blocks. Qed.
Lemma stored_places e d xs : stored e d xs = map d (flat_map (place e) xs).
Proof. unfold stored. rewrite places_blocks. induction (flat_map blocks xs) as [|x l IH]; [reflexivity|]. cbn [flat_map]. now rewrite map_app, <- IH, block_place. Qed.
Lemma NoDup_flat {A B} (f : A -> list B) l : NoDup l -> (forall x, In x l -> NoDup (f x)) -> (forall x y b, In x l -> In y l -> In b (f x) -> In b (f y) -> x = y) -> NoDup (flat_map f l).
Proof.
  induction 1 as [|x l HX HN IH]; intros H1 H2; [constructor|]. cbn. assert (HA : NoDup (f x)) by (apply H1; now left). assert (HB : NoDup (flat_map f l)) by (apply IH; [intros; apply H1; now right|intros; eapply H2; eauto; now right]).
  assert (HD : forall b, In b (f x) -> ~ In b (flat_map f l)). { intros b B1 B2. apply in_flat_map in B2. destruct B2 as (y & Y1 & Y2). assert (x = y) by (eapply H2; eauto; [now left|now right]). congruence. }
  revert HA HD. generalize (f x). intro q. induction q as [|b q IHq]; intros HA HD; [exact HB|]. inversion HA; subst. cbn. constructor; [|apply IHq; auto; intros c HC; apply HD; now right]. intro HC. apply in_app_or in HC. destruct HC as [HC|HC]; [auto|]. apply (HD b); [now left|exact HC].
Qed.
Definition block_in (e : env) (size : N -> N) (x : N * N) : Prop := (snd x + 1) * e_bs e <= size (fst x).
Lemma bplace_nodup e x : NoDup (bplace e x).
Proof. unfold bplace. destruct (e_chunk e (fst x)) as [[p s]|]; [|constructor]. apply FinFun.Injective_map_NoDup; [intros i j H; injection H; lia|apply nseq_nodup]. Qed.
Lemma bplace_apart e size x y b : env_ok e size -> block_in e size x -> block_in e size y -> In b (bplace e x) -> In b (bplace e y) -> x = y.
Proof.
  intros [HB HE] HX HY. unfold bplace, block_in in *. destruct x as [c u], y as [c' u']. cbn [fst snd] in *. destruct (e_chunk e c) as [[p s]|] eqn:E; [|intros []]. destruct (e_chunk e c') as [[p' s']|] eqn:E'; [|intros _ []]. rewrite !in_map_iff. intros (i & <- & HI) (j & EQ & HJ). injection EQ as -> EQ. apply nseq_in in HI, HJ.
  destruct (N.eq_dec c c') as [<-|HN].
  - rewrite E in E'. injection E' as <-. f_equal. nia.
  - exfalso. destruct (HE c c' p s s' HN E E') as [H|H]; nia.
Qed.
Lemma places_nodup e size xs : env_ok e size -> Forall (piece_ok e size) xs -> NoDup (flat_map blocks xs) -> NoDup (flat_map (place e) xs).
Proof.
  intros HE HF HN. rewrite places_blocks. assert (HI : forall x, In x (flat_map blocks xs) -> block_in e size x).
  { intros x HX. apply in_flat_map in HX. destruct HX as ([[c b] k] & H1 & H2). rewrite Forall_forall in HF. destruct (HF _ H1) as [_ HS]. unfold blocks in H2. apply in_map_iff in H2. destruct H2 as (u & <- & HU). apply nseq_in in HU. unfold block_in. cbn [fst snd]. nia. }
  apply NoDup_flat; [exact HN|intros; apply bplace_nodup|]. intros x y b HX HY. apply (bplace_apart e size); auto.
Qed.
Lemma piece_there e size xs : Forall (piece_ok e size) xs -> Forall (there e) xs.
Proof. apply Forall_impl. intros [[c b] k] [H _]. exact H. Qed.

Lemma writes_cells m rs : forall d, fold_left (do_write m) rs d = cells set1 (flat_map (wcells m) rs) d.
Proof. induction rs as [|r rs IH]; intro d; [reflexivity|]. cbn [fold_left flat_map]. now rewrite IH, cells_app, do_write_cells. Qed.
Lemma reads_cells d rs : forall m, fold_left (do_read d) rs m = cells set_mem (flat_map (rcells d) rs) m.
Proof. induction rs as [|r rs IH]; intro m; [reflexivity|]. cbn [fold_left flat_map]. now rewrite IH, cells_app, do_read_cells. Qed.
Lemma wcells_pairs m rs : flat_map (wcells m) rs = map (fun x => (fst x, m (snd x))) (flat_map rpairs rs).
Proof. induction rs as [|r rs IH]; [reflexivity|]. cbn [flat_map]. now rewrite map_app, <- IH. Qed.
Lemma rcells_pairs d rs : flat_map (rcells d) rs = map (fun x => (snd x, d (fst x))) (flat_map rpairs rs).
Proof. induction rs as [|r rs IH]; [reflexivity|]. cbn [flat_map]. now rewrite map_app, <- IH. Qed.
Lemma map_fst_combine {A B} (l : list A) : forall (l' : list B), length l = length l' -> map fst (combine l l') = l.
Proof. induction l as [|a l IH]; intros [|b l'] H; try discriminate; [reflexivity|]. cbn. f_equal. apply IH. cbn in H. lia. Qed.
Lemma map_snd_combine {A B} (l : list A) : forall (l' : list B), length l = length l' -> map snd (combine l l') = l'.
Proof. induction l as [|a l IH]; intros [|b l'] H; try discriminate; [reflexivity|]. cbn. f_equal. apply IH. cbn in H. lia. Qed.
Lemma Permutation_flat {A B} (f : A -> list B) l l' : Permutation l l' -> Permutation (flat_map f l) (flat_map f l').
Proof. apply Permutation_flat_map. Qed.
Lemma map_cells {K} (eqd : forall a b : K, {a = b} + {a <> b}) (g : K -> N) ks : forall vs, length ks = length vs -> (forall a v, In (a, v) (combine ks vs) -> g a = v) -> map g ks = vs.
Proof. induction ks as [|k ks IH]; intros [|v vs] HL H; try discriminate; [reflexivity|]. cbn. f_equal; [apply H; now left|]. apply IH; [cbn in HL; lia|]. intros a w HI. apply H. now right. Qed.

Lemma calls_pairs e size cs : Forall (fun c => Forall (piece_ok e size) (call_pieces c) /\ call_ok e c) cs ->
  map fst (flat_map rpairs (flat_map (fun c => issued (call_reqs e c)) cs)) = flat_map (place e) (flat_map call_pieces cs).
Proof.
  induction 1 as [|c cs [H1 H2] HF IH]; [reflexivity|]. cbn [flat_map]. destruct (call_pairs e c (piece_there e size _ H1) H2) as (_ & H3 & H4). rewrite !flat_map_app, map_app, IH, H3. f_equal. now apply map_fst_combine.
Qed.
Lemma flat_incl {A B} (f : A -> list B) a l x : In a l -> In x (f a) -> In x (flat_map f l).
Proof. intros H1 H2. apply in_flat_map. eauto. Qed.
