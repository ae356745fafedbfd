From Coq Require Import NArith ZArith List Bool Lia.
From Verif Require Import Base ByteBase BlkIdModel BlkIdProofs BlkIdSpec ReplEntryModel ReplEntrySpec.
Import ListNotations.

Lemma unz32_z32 z : server_ok z -> unz32 (z32 z) = z.
Proof.
  unfold server_ok, unz32, z32. intros H.
  assert (E : (z mod 2 ^ 32 = if z <? 0 then z + 2 ^ 32 else z)%Z).
  { destruct (Z.ltb_spec z 0).
    - symmetry. apply (Z.mod_unique z (2 ^ 32) (-1)); lia.
    - apply Z.mod_small. lia. }
  rewrite E. destruct (Z.ltb_spec z 0).
  - destruct (N.ltb_spec (Z.to_N (z + 2 ^ 32)) (2 ^ 31)); lia.
  - destruct (N.ltb_spec (Z.to_N z) (2 ^ 31)); lia.
Qed.
Lemma z32_lt z : (z32 z < 256 ^ N.of_nat 4)%N.
Proof. unfold z32. assert (H := Z.mod_pos_bound z (2 ^ 32) ltac:(lia)). change (256 ^ N.of_nat 4)%N with (2 ^ 32)%N. lia. Qed.

Lemma an_id_wf n m : an_id n m -> multi_wf m.
Proof.
  intros (c & ps & Hs & Hl & H1 & Hb). rewrite (build_add_all _ _ c (scattered_chunk _ _ Hs)) in Hb.
  exact (add_all_wf _ _ _ _ multi_empty_wf Hb).
Qed.
Lemma an_id_size n m : an_id n m -> serialized_size m = expected_serialized_size n.
Proof. intros (c & ps & Hs & Hl & H1 & Hb). subst n. exact (proj2 (proj2 (c02_lemma c ps m Hs H1 Hb))). Qed.
Lemma size_pos m : (8 <= serialized_size m)%nat.
Proof. unfold serialized_size. destruct (addln m); cbn; lia. Qed.
Lemma an_id_max n m : an_id n m -> (serialized_size m <= 40)%nat.
Proof. intros H. destruct (an_id_wf n m H) as (_ & _ & L). unfold max_addln_pieces in L. unfold serialized_size. destruct (addln m); cbn in *; lia. Qed.

Lemma ids_bytes ids : length (flat_map multi_serialize ids) = ids_size ids.
Proof. induction ids as [|m t IH]; [reflexivity|]. cbn [flat_map ids_size fold_right]. rewrite app_length, serialize_length, IH. reflexivity. Qed.
Lemma value_len q : length (value_bytes q) = value_size q.
Proof. unfold value_bytes, value_size. destruct (linked q); [apply ids_bytes|reflexivity]. Qed.

(** An entry in one piece: header fields, then the rest. *)
Definition head (q : req) (server : Z) : bytes :=
  le 2 1 ++ le 2 1 ++ le 2 (q_code q) ++ le 8 (q_trace q) ++ le 4 (z32 server) ++ le 8 (q_dsn q) ++
  le 4 (N.of_nat (length (q_hdr q))) ++ le 4 (N.of_nat (length (q_key q))) ++ le 4 (N.of_nat (value_size q)).
Definition tail (q : req) : bytes := q_hdr q ++ q_key q ++ value_bytes q.
Lemma create_split q z : create_entry q z = head q z ++ tail q.
Proof. unfold create_entry, head, tail. rewrite <- !app_assoc. reflexivity. Qed.
Lemma head_len q z : length (head q z) = entry_header.
Proof. unfold head. rewrite !app_length, !le_length. reflexivity. Qed.
Lemma tail_len q : length (tail q) = (length (q_hdr q) + length (q_key q) + value_size q)%nat.
Proof. unfold tail. rewrite !app_length, value_len. lia. Qed.
Lemma create_len q z : length (create_entry q z) = (entry_header + length (q_hdr q) + length (q_key q) + value_size q)%nat.
Proof. rewrite create_split, app_length, head_len, tail_len. lia. Qed.

Lemma get_mid off len a n b : length a = off -> (n < 256 ^ N.of_nat len)%N -> get off len (a ++ le len n ++ b) = n.
Proof.
  intros <- H. unfold get. rewrite sub_app_r by lia. rewrite Nat.sub_diag. rewrite sub_app_l by (rewrite le_length; lia).
  rewrite sub_all by (rewrite le_length; lia). now apply unle_le.
Qed.
Ltac fld := repeat rewrite app_assoc; repeat rewrite <- (app_assoc _ (le _ _) _); reflexivity.

Section Fields.
  Context (q : req) (z : Z) (H : req_ok q) (Hv : (N.of_nat (value_size q) < 2 ^ 32)%N) (Hz : server_ok z).
  Let b := create_entry q z.
  Lemma f_major : e_major b = 1%N.
  Proof. unfold e_major, b, create_entry. exact (get_mid 0 2 [] 1 _ eq_refl ltac:(reflexivity)). Qed.
  Lemma f_code : e_code b = q_code q.
  Proof.
    unfold e_code, b, create_entry. rewrite (app_assoc (le 2 1) (le 2 1)).
    apply get_mid; [rewrite app_length, !le_length; reflexivity|]. apply H.
  Qed.
  Lemma f_trace : e_trace b = q_trace q.
  Proof.
    unfold e_trace, b, create_entry. rewrite (app_assoc (le 2 1)), (app_assoc (_ ++ _)).
    apply get_mid; [rewrite !app_length, !le_length; reflexivity|]. apply H.
  Qed.
  Lemma f_server : e_server b = z.
  Proof.
    unfold e_server, b, create_entry. rewrite (app_assoc (le 2 1)), 2!(app_assoc (_ ++ _)).
    rewrite get_mid; [now apply unz32_z32|rewrite !app_length, !le_length; reflexivity|apply z32_lt].
  Qed.
  Lemma f_dsn : e_dsn b = q_dsn q.
  Proof.
    unfold e_dsn, b, create_entry. rewrite (app_assoc (le 2 1)), 3!(app_assoc (_ ++ _)).
    apply get_mid; [rewrite !app_length, !le_length; reflexivity|]. apply H.
  Qed.
  Lemma f_hdr : e_hdr b = length (q_hdr q).
  Proof.
    clear Hv Hz.
    unfold e_hdr, b, create_entry. rewrite (app_assoc (le 2 1)), 4!(app_assoc (_ ++ _)).
    rewrite get_mid; [lia|rewrite !app_length, !le_length; reflexivity|].
    change (256 ^ N.of_nat 4)%N with 4294967296%N. destruct H as (_ & _ & _ & _ & L). change (2 ^ 31)%N with 2147483648%N in L. lia.
  Qed.
  Lemma f_key : e_key b = length (q_key q).
  Proof.
    clear Hv Hz.
    unfold e_key, b, create_entry. rewrite (app_assoc (le 2 1)), 5!(app_assoc (_ ++ _)).
    rewrite get_mid; [lia|rewrite !app_length, !le_length; reflexivity|].
    change (256 ^ N.of_nat 4)%N with 4294967296%N. destruct H as (_ & _ & _ & _ & L). change (2 ^ 31)%N with 2147483648%N in L. lia.
  Qed.
  Lemma f_val : e_val b = value_size q.
  Proof.
    clear H Hz.
    unfold e_val, b, create_entry. rewrite (app_assoc (le 2 1)), 6!(app_assoc (_ ++ _)).
    rewrite get_mid; [lia|rewrite !app_length, !le_length; reflexivity|exact Hv].
  Qed.
End Fields.

(** ** Decoding *)
Lemma one_piece m : an_id 1 m -> serialized_size m = 8%nat.
Proof. intros H. rewrite (an_id_size 1 m H). reflexivity. Qed.
Lemma solo_ids_ok ids : Forall (an_id 1) ids -> forall fuel, (length (flat_map multi_serialize ids) <= fuel)%nat ->
  solo_ids fuel (flat_map multi_serialize ids) = Done ids.
Proof.
  induction 1 as [|m t Hm Ht IH]; intros fuel Hf; [destruct fuel; reflexivity|].
  cbn [flat_map] in *. rewrite app_length in Hf. assert (L : length (multi_serialize m) = 8%nat) by (rewrite serialize_length; now apply one_piece).
  destruct fuel as [|f]; [lia|]. cbn [solo_ids]. destruct (multi_serialize m ++ flat_map multi_serialize t) as [|x r] eqn:E.
  { apply (f_equal (@length N)) in E. rewrite app_length in E. cbn in E. lia. }
  rewrite <- E. destruct (Nat.ltb_spec (length (multi_serialize m ++ flat_map multi_serialize t)) 8) as [Hlt|_]; [rewrite app_length in Hlt; lia|].
  rewrite firstn_app, L, Nat.sub_diag, firstn_O, app_nil_r, firstn_all2 by lia.
  rewrite skipn_app, L, Nat.sub_diag, skipn_O, skipn_all2 by lia. cbn [app].
  rewrite (deserialize_serialize m (an_id_wf 1 m Hm)). rewrite IH by lia. reflexivity.
Qed.

Lemma ids_size_1 ids : Forall (an_id 1) ids -> ids_size ids = (8 * length ids)%nat.
Proof. induction 1 as [|m t Hm Ht IH]; [reflexivity|]. cbn [ids_size fold_right length]. fold (ids_size t). rewrite (one_piece m Hm), IH. lia. Qed.

Lemma skip_head q z : skipn entry_header (create_entry q z) = tail q.
Proof. rewrite create_split, skipn_app, head_len, Nat.sub_diag. rewrite skipn_all2 by (rewrite head_len; lia). reflexivity. Qed.

Lemma solo_ok q z : req_ok q -> server_ok z -> Forall (an_id 1) (q_ids q) -> (N.of_nat (length (q_ids q)) < 2 ^ 28)%N ->
  solo_decode (create_entry q z) = Done (q_hdr q, q_key q, if linked q then q_ids q else []).
Proof.
  intros H Hz Hi Hn.
  assert (Hv : (N.of_nat (value_size q) < 2 ^ 32)%N).
  { unfold value_size. destruct (linked q); [|lia]. rewrite (ids_size_1 _ Hi). change (2 ^ 32)%N with 4294967296%N. change (2 ^ 28)%N with 268435456%N in Hn. lia. }
  unfold solo_decode. rewrite (f_major q z), (f_hdr q z H), (f_key q z H), skip_head.
  destruct (Nat.ltb_spec (length (create_entry q z)) entry_header) as [Hlt|_]; [rewrite create_len in Hlt; lia|].
  cbn [N.eqb Pos.eqb negb]. rewrite tail_len.
  destruct (Nat.ltb_spec (length (q_hdr q) + length (q_key q) + value_size q) (length (q_hdr q))); [lia|].
  destruct (Nat.ltb_spec (length (q_hdr q) + length (q_key q) + value_size q - length (q_hdr q)) (length (q_key q))); [lia|].
  assert (E1 : skipn (length (q_hdr q)) (tail q) = q_key q ++ value_bytes q).
  { unfold tail. rewrite skipn_app, Nat.sub_diag, skipn_all. reflexivity. }
  assert (E2 : skipn (length (q_hdr q) + length (q_key q)) (tail q) = value_bytes q).
  { rewrite <- skipn_skipn, E1, skipn_app, Nat.sub_diag, skipn_all. reflexivity. }
  assert (E3 : firstn (length (q_hdr q)) (tail q) = q_hdr q).
  { unfold tail. rewrite firstn_app, Nat.sub_diag, firstn_all. cbn [firstn]. apply app_nil_r. }
  assert (E4 : firstn (length (q_key q)) (q_key q ++ value_bytes q) = q_key q).
  { rewrite firstn_app, Nat.sub_diag, firstn_all. cbn [firstn]. apply app_nil_r. }
  rewrite E2, E1, E3, E4. unfold value_bytes. destruct (linked q) eqn:El.
  - rewrite (solo_ids_ok _ Hi); [reflexivity|]. rewrite ids_bytes, create_len. unfold value_size. rewrite El. lia.
  - destruct (length (create_entry q z)); reflexivity.
Qed.

Definition id_of_req (q : req) : option multi := if linked q then hd_error (q_ids q) else None.
Lemma small_value q n : length (q_ids q) <= 1 -> Forall (an_id n) (q_ids q) -> (value_size q <= 40)%nat.
Proof.
  intros L F. unfold value_size. destruct (linked q); [|lia]. destruct (q_ids q) as [|m [|]]; cbn in L; try lia; cbn; [lia|].
  inversion F; subst. pose proof (an_id_max n m ltac:(assumption)). lia.
Qed.
Lemma raft_ok q z n : req_ok q -> server_ok z -> length (q_ids q) <= 1 -> Forall (an_id n) (q_ids q) ->
  raft_decode (create_entry q z) = Done (Entry (q_code q) (q_trace q) z (q_dsn q) (q_hdr q) (q_key q) (id_of_req q)).
Proof.
  intros H Hz Hl Hi. pose proof (small_value q n Hl Hi) as Hs.
  assert (Hv : (N.of_nat (value_size q) < 2 ^ 32)%N) by (change (2 ^ 32)%N with 4294967296%N; lia).
  unfold raft_decode. rewrite (f_major q z), (f_hdr q z H), (f_key q z H), (f_val q z Hv), (f_code q z H), (f_trace q z H), (f_server q z Hz), (f_dsn q z H).
  destruct (Nat.ltb_spec (length (create_entry q z)) entry_header) as [Hlt|_]; [rewrite create_len in Hlt; lia|].
  cbn [N.eqb Pos.eqb negb].
  destruct (Nat.ltb_spec (length (create_entry q z)) (entry_header + length (q_hdr q) + length (q_key q) + value_size q)) as [Hlt|_]; [rewrite create_len in Hlt; lia|].
  assert (E1 : sub entry_header (length (q_hdr q)) (create_entry q z) = q_hdr q).
  { rewrite create_split, sub_app_r by (rewrite head_len; lia). rewrite head_len, Nat.sub_diag. unfold tail. rewrite sub_app_l by lia. apply sub_all. lia. }
  assert (E2 : sub (entry_header + length (q_hdr q)) (length (q_key q)) (create_entry q z) = q_key q).
  { rewrite create_split, sub_app_r by (rewrite head_len; lia). rewrite head_len. unfold tail. rewrite sub_app_r by lia.
    replace (entry_header + length (q_hdr q) - entry_header - length (q_hdr q))%nat with 0%nat by lia. rewrite sub_app_l by lia. apply sub_all. lia. }
  assert (E3 : sub (entry_header + length (q_hdr q) + length (q_key q)) (value_size q) (create_entry q z) = value_bytes q).
  { rewrite create_split, sub_app_r by (rewrite head_len; lia). rewrite head_len. unfold tail. rewrite app_assoc, sub_app_r by (rewrite app_length; lia).
    rewrite app_length. replace (entry_header + length (q_hdr q) + length (q_key q) - entry_header - (length (q_hdr q) + length (q_key q)))%nat with 0%nat by lia.
    apply sub_all. rewrite value_len. lia. }
  cbv zeta. rewrite E1, E2, E3. clear E1 E2 E3. unfold id_of_req. change (q_code q =? code_linked)%N with (linked q).
  destruct (linked q) eqn:El; [|reflexivity]. unfold value_size, value_bytes. rewrite El.
  destruct (q_ids q) as [|m [|]]; cbn in Hl; try lia; [reflexivity|]. inversion Hi; subst.
  cbn [ids_size fold_right flat_map andb hd_error]. rewrite app_nil_r. pose proof (size_pos m).
  destruct (Nat.ltb_spec 0 (serialized_size m + 0)); [|lia].
  rewrite (deserialize_serialize m (an_id_wf n m ltac:(assumption))). reflexivity.
Qed.

(** ** Localizing *)
Definition with_ids (q : req) (ids : list multi) : req := Req (q_code q) (q_trace q) (q_dsn q) (q_hdr q) (q_key q) ids.
Lemma put_mid a x bs c : length x = length bs -> put (length a) bs (a ++ x ++ c) = a ++ bs ++ c.
Proof.
  intros L. unfold put. rewrite firstn_app, Nat.sub_diag, firstn_all. cbn [firstn]. rewrite app_nil_r. f_equal. f_equal.
  rewrite skipn_app. rewrite (skipn_all2 a) by lia. cbn [app]. rewrite <- L.
  replace (length a + length x - length a)%nat with (length x) by lia. rewrite skipn_app, Nat.sub_diag, skipn_all. reflexivity.
Qed.
Lemma localize_ok q z theirs mine n zs : req_ok q -> server_ok z -> linked q = true -> q_ids q = [theirs] -> an_id n theirs -> an_id n mine ->
  localize (create_entry q z) mine zs = Done (create_entry (with_ids q [mine]) zs).
Proof.
  intros H Hz El Ei Ht Hm. unfold localize.
  rewrite (raft_ok q z n H Hz); [|rewrite Ei; cbn; lia|rewrite Ei; repeat constructor; exact Ht].
  cbn [n_id]. unfold id_of_req. rewrite El, Ei. cbn [hd_error].
  pose proof (an_id_size n theirs Ht) as S1. pose proof (an_id_size n mine Hm) as S2. pose proof (an_id_max n theirs Ht) as S3.
  assert (V : value_size q = serialized_size theirs) by (unfold value_size; rewrite El, Ei; cbn; lia).
  rewrite (f_val q z) by (rewrite V; change (2 ^ 32)%N with 4294967296%N; lia). rewrite create_len, V.
  destruct (Nat.ltb_spec (entry_header + length (q_hdr q) + length (q_key q) + serialized_size theirs)
    (entry_header + length (q_hdr q) + length (q_key q) + serialized_size theirs - serialized_size theirs + serialized_size mine)) as [?|_]; [lia|].
  f_equal. replace (entry_header + length (q_hdr q) + length (q_key q) + serialized_size theirs - serialized_size theirs)%nat
    with (length (head q z ++ q_hdr q ++ q_key q)) by (rewrite !app_length, head_len; lia).
  assert (E : create_entry q z = (head q z ++ q_hdr q ++ q_key q) ++ multi_serialize theirs ++ []).
  { rewrite create_split. unfold tail, value_bytes. rewrite El, Ei. cbn [flat_map]. rewrite !app_nil_r, <- !app_assoc. reflexivity. }
  rewrite E, put_mid by (rewrite !serialize_length; lia). rewrite app_nil_r. clear E.
  unfold create_entry, head, value_bytes. change (linked (with_ids q [mine])) with (linked q). rewrite El.
  assert (V2 : value_size (with_ids q [mine]) = value_size q).
  { rewrite V. unfold value_size. change (linked (with_ids q [mine])) with (linked q). rewrite El. cbn. lia. }
  rewrite V2. cbn [with_ids q_code q_trace q_dsn q_hdr q_key q_ids flat_map]. rewrite app_nil_r. rewrite <- !app_assoc.
  set (a := le 2 1 ++ le 2 1 ++ le 2 (q_code q) ++ le 8 (q_trace q)).
  replace 14%nat with (length a) by (unfold a; rewrite !app_length, !le_length; reflexivity).
  set (rest := le 8 (q_dsn q) ++ _).
  transitivity (put (length a) (le 4 (z32 zs)) (a ++ le 4 (z32 z) ++ rest)); [f_equal; unfold a; rewrite <- !app_assoc; reflexivity|].
  rewrite put_mid by (rewrite !le_length; reflexivity). unfold a. rewrite <- !app_assoc. reflexivity.
Qed.
