(** Lemmas about block identifiers. *)
From Coq Require Import NArith ZArith List Lia.
From Verif Require Import Base BlkIdModel.
Import ListNotations.
Local Open Scope N_scope.

Definition ser_wf (s : serialized) : Prop :=
  m_is_multi s < 2 /\ m_blk_num s < 2 ^ 31 /\ m_nblks s < 2 ^ 16 /\ m_chunk_num s < 2 ^ 16.

Lemma mk_serialized_wf : forall f b n c, ser_wf (mk_serialized f b n c).
Proof.
  intros f b n c. unfold ser_wf, mk_serialized; simpl m_is_multi; simpl m_blk_num; simpl m_nblks; simpl m_chunk_num.
  repeat split; try (apply N.mod_lt; discriminate). destruct f; lia.
Qed.

Lemma to_integer_bound : forall s, ser_wf s -> to_integer s < 2 ^ 64.
Proof.
  intros [f b n c] (Hf & Hb & Hn & Hc). unfold to_integer.
  cbn [m_is_multi m_blk_num m_nblks m_chunk_num] in *.
  change (2^64) with 18446744073709551616. change (2^31) with 2147483648 in *.
  change (2^16) with 65536 in *. change (2^32) with 4294967296. change (2^48) with 281474976710656. lia.
Qed.

Lemma of_to_integer : forall s, ser_wf s -> of_integer (to_integer s) = s.
Proof.
  intros s Hwf. unfold of_integer. rewrite (N.mod_small (to_integer s) (2 ^ 64)) by now apply to_integer_bound.
  destruct s as [f b n c]. destruct Hwf as (Hf & Hb & Hn & Hc). unfold to_integer.
  cbn [m_is_multi m_blk_num m_nblks m_chunk_num] in *.
  change (2^31) with 2147483648 in *. change (2^16) with 65536 in *.
  change (2^32) with 4294967296. change (2^48) with 281474976710656.
  f_equal; lia.
Qed.

Lemma to_of_integer : forall i, i < 2 ^ 64 -> to_integer (of_integer i) = i.
Proof.
  intros i Hi. unfold of_integer. rewrite (N.mod_small i (2 ^ 64)) by assumption. unfold to_integer.
  cbn [m_is_multi m_blk_num m_nblks m_chunk_num].
  change (2^64) with 18446744073709551616 in *.
  change (2^31) with 2147483648 in *. change (2^16) with 65536 in *.
  change (2^32) with 4294967296. change (2^48) with 281474976710656. lia.
Qed.

Lemma mk_serialized_small : forall f b n c, b < 2 ^ 31 -> n < 2 ^ 16 -> c < 2 ^ 16 ->
  mk_serialized f b n c = Ser (if f then 1 else 0) b n c.
Proof. intros. unfold mk_serialized. now rewrite !N.mod_small. Qed.

Lemma compare_spec : forall a b, compare a b =
  match N.compare (m_chunk_num a) (m_chunk_num b) with
  | Eq => match N.compare (m_blk_num a) (m_blk_num b) with
          | Eq => N.compare (m_nblks a) (m_nblks b)
          | r => r
          end
  | r => r
  end.
Proof.
  intros a b. unfold compare.
  destruct (N.compare_spec (m_chunk_num a) (m_chunk_num b)) as [Hc|Hc|Hc].
  - rewrite Hc, N.ltb_irrefl.
    destruct (N.compare_spec (m_blk_num a) (m_blk_num b)) as [Hb|Hb|Hb].
    + rewrite Hb, N.ltb_irrefl.
      destruct (N.compare_spec (m_nblks a) (m_nblks b)) as [Hn|Hn|Hn].
      * now rewrite Hn, N.ltb_irrefl.
      * apply N.ltb_lt in Hn. now rewrite Hn.
      * assert (Hn' : m_nblks a <? m_nblks b = false) by (apply N.ltb_ge; lia).
        apply N.ltb_lt in Hn. now rewrite Hn', Hn.
    + apply N.ltb_lt in Hb. now rewrite Hb.
    + assert (Hb' : m_blk_num a <? m_blk_num b = false) by (apply N.ltb_ge; lia).
      apply N.ltb_lt in Hb. now rewrite Hb', Hb.
  - apply N.ltb_lt in Hc. now rewrite Hc.
  - assert (Hc' : m_chunk_num a <? m_chunk_num b = false) by (apply N.ltb_ge; lia).
    apply N.ltb_lt in Hc. now rewrite Hc', Hc.
Qed.

(** ** Multi-piece ids *)

Definition chain_wf (c : chain_blkid) : Prop := c_blk_num c < 2 ^ 32 /\ c_nblks c < 2 ^ 16.

Definition multi_wf (m : multi) : Prop :=
  ser_wf (base m) /\ Forall chain_wf (addln m) /\ (length (addln m) <= max_addln_pieces)%nat.

Lemma chain_bytes_length : forall c, length (chain_bytes c) = 6%nat.
Proof. intros c. unfold chain_bytes. now rewrite app_length, !le_bytes_length. Qed.

Lemma flat_chain_length : forall l, length (flat_map chain_bytes l) = (length l * 6)%nat.
Proof.
  induction l as [|c l IH]; [reflexivity|]. cbn [flat_map length].
  rewrite app_length, chain_bytes_length, IH. lia.
Qed.

Lemma read_chain_flat : forall l tl, Forall chain_wf l ->
  read_chain (length l) (flat_map chain_bytes l ++ tl) = Some l.
Proof.
  induction l as [|c l IH]; intros tl Hall; [reflexivity|].
  inversion Hall as [|x y Hc Hl]; subst.
  cbn [length read_chain flat_map]. rewrite <- app_assoc.
  destruct (Nat.ltb_spec (length (chain_bytes c ++ flat_map chain_bytes l ++ tl)) 6) as [Hlt|Hge].
  { rewrite app_length, chain_bytes_length in Hlt. lia. }
  rewrite skipn_app_exact by (now rewrite chain_bytes_length).
  rewrite IH by assumption.
  unfold chain_bytes. rewrite <- !app_assoc.
  rewrite firstn_app_exact by (now rewrite le_bytes_length).
  rewrite skipn_app_exact by (now rewrite le_bytes_length).
  rewrite firstn_app_exact by (now rewrite le_bytes_length).
  destruct Hc as [Hc1 Hc2].
  rewrite !le_val_bytes_small by (simpl; assumption).
  now destruct c.
Qed.

Lemma serialize_length : forall m, length (multi_serialize m) = serialized_size m.
Proof.
  intros [b l]. unfold multi_serialize, serialized_size; cbn [base addln].
  rewrite firstn_length, !app_length, !le_bytes_length, flat_chain_length.
  destruct l as [|c l]; cbn [length]; lia.
Qed.

Lemma deserialize_serialize : forall m, multi_wf m -> multi_deserialize (multi_serialize m) = Some m.
Proof.
  intros m (Hb & Hc & Hlen). unfold multi_deserialize. rewrite serialize_length.
  destruct m as [b l]; cbn [base addln] in *.
  unfold multi_serialize, serialized_size; cbn [base addln].
  destruct l as [|c l].
  - cbn [Nat.ltb Nat.leb Nat.eqb].
    rewrite firstn_firstn. cbn [Nat.min].
    rewrite firstn_app_exact by (now rewrite le_bytes_length).
    rewrite le_val_bytes_small by (now apply to_integer_bound).
    now rewrite of_to_integer.
  - set (L := c :: l) in *.
    assert (HL : (1 <= length L)%nat) by (unfold L; cbn [length]; lia).
    replace (Nat.ltb (8 + 2 + length L * 6) 8) with false by (symmetry; apply Nat.ltb_ge; lia).
    replace (Nat.eqb (8 + 2 + length L * 6) 8) with false by (symmetry; apply Nat.eqb_neq; lia).
    replace (Nat.ltb (8 + 2 + length L * 6) 10) with false by (symmetry; apply Nat.ltb_ge; lia).
    rewrite (firstn_all2 (n := 8 + 2 + length L * 6)).
    2:{ rewrite !app_length, !le_bytes_length, flat_chain_length. lia. }
    rewrite firstn_app_exact by (now rewrite le_bytes_length).
    rewrite skipn_app_exact by (now rewrite le_bytes_length).
    rewrite firstn_app_exact by (now rewrite le_bytes_length).
    rewrite (le_val_bytes_small 8 (to_integer b)) by (now apply to_integer_bound).
    rewrite (le_val_bytes_small 2 (N.of_nat (length L))).
    2:{ change (256 ^ N.of_nat 2) with 65536. unfold max_addln_pieces in Hlen. lia. }
    rewrite Nat2N.id.
    replace (Nat.ltb max_addln_pieces (length L)) with false by (symmetry; apply Nat.ltb_ge; lia).
    replace (skipn 10 (le_bytes 8 (to_integer b) ++ le_bytes 2 (N.of_nat (length L)) ++ flat_map chain_bytes L))
      with (flat_map chain_bytes L ++ []).
    2:{ rewrite app_assoc. rewrite app_nil_r. symmetry. apply skipn_app_exact.
        now rewrite app_length, !le_bytes_length. }
    rewrite read_chain_flat by assumption.
    now rewrite of_to_integer.
Qed.

(** Building an id from a list of pieces of one chunk. *)
Fixpoint add_all (m : multi) (chunk : N) (ps : list (N * N)) : option multi :=
  match ps with
  | [] => Some m
  | (b, n) :: ps' => match multi_add m b n chunk with
                     | Some m' => add_all m' chunk ps'
                     | None => None
                     end
  end.

Lemma multi_add_wf : forall m b n c m', multi_wf m -> multi_add m b n c = Some m' -> multi_wf m'.
Proof.
  intros m b n c m' (Hb & Hc & Hl). unfold multi_add.
  destruct (is_valid (base m)).
  - destruct (negb _); [discriminate|].
    destruct (Nat.leb_spec max_addln_pieces (length (addln m))) as [Hle|Hgt]; [discriminate|].
    intros [= <-]. split; [assumption|]. cbn [addln base]. split.
    + apply Forall_app. split; [assumption|]. constructor; [|constructor].
      split; cbn [c_blk_num c_nblks]; apply N.mod_lt; discriminate.
    + rewrite app_length. cbn [length]. lia.
  - intros [= <-]. split; [apply mk_serialized_wf|]. now split.
Qed.

Lemma add_all_wf : forall ps m c m', multi_wf m -> add_all m c ps = Some m' -> multi_wf m'.
Proof.
  induction ps as [|[b n] ps IH]; intros m c m' Hwf; cbn [add_all].
  - now intros [= <-].
  - destruct (multi_add m b n c) as [m1|] eqn:E; [|discriminate].
    intros H. eapply IH; [|exact H]. eapply multi_add_wf; eauto.
Qed.

Lemma multi_empty_wf : multi_wf multi_empty.
Proof. unfold multi_wf, multi_empty, ser_wf, max_addln_pieces; cbn. repeat split; try lia; constructor. Qed.

Definition piece_ok (p : N * N) : Prop := fst p < 2 ^ 31 /\ 0 < snd p /\ snd p < 2 ^ 16.

Lemma add_all_valid : forall ps m c,
  is_valid (base m) = true -> m_chunk_num (base m) = c -> c < 2 ^ 16 -> Forall piece_ok ps ->
  (length (addln m) + length ps <= max_addln_pieces)%nat ->
  add_all m c ps = Some (Multi (base m) (addln m ++ map (fun p => Chain (fst p) (snd p)) ps)).
Proof.
  induction ps as [|[b n] ps IH]; intros m c Hv Hc Hcb Hall Hlen; cbn [add_all map].
  - rewrite app_nil_r. now destruct m.
  - inversion Hall as [|x y Hp Hps]; subst x y. destruct Hp as (Hb & Hn0 & Hn). cbn [fst snd] in *.
    cbn [length] in Hlen.
    unfold multi_add. rewrite Hv.
    rewrite (N.mod_small c) by assumption. rewrite Hc, N.eqb_refl. cbn [negb].
    destruct (Nat.leb_spec max_addln_pieces (length (addln m))) as [Hle|Hgt]; [lia|].
    rewrite IH; cbn [base addln]; auto.
    + rewrite !N.mod_small by (change (2^32) with 4294967296; change (2^31) with 2147483648 in *; lia).
      now rewrite <- app_assoc.
    + rewrite app_length. cbn [length]. lia.
Qed.

Lemma add_all_from_empty : forall p ps c, c < 2 ^ 16 -> Forall piece_ok (p :: ps) ->
  (length (p :: ps) <= S max_addln_pieces)%nat ->
  add_all multi_empty c (p :: ps) =
    Some (Multi (Ser 1 (fst p) (snd p) c) (map (fun q => Chain (fst q) (snd q)) ps)).
Proof.
  intros [b n] ps c Hc Hall Hlen.
  inversion Hall as [|x y Hp Hps]; subst x y. destruct Hp as (Hb & Hn0 & Hn). cbn [fst snd length] in *.
  cbn [add_all]. unfold multi_add at 1. cbn [is_valid multi_empty base m_nblks N.ltb N.compare].
  rewrite mk_serialized_small by assumption.
  rewrite add_all_valid; cbn [base addln]; auto.
  - unfold is_valid; cbn [m_nblks]. now apply N.ltb_lt.
  - cbn [multi_empty addln length]. lia.
Qed.

Lemma add_all_too_many : forall ps m c, is_valid (base m) = true ->
  (length (addln m) <= max_addln_pieces)%nat ->
  (max_addln_pieces < length (addln m) + length ps)%nat -> add_all m c ps = None.
Proof.
  induction ps as [|[b n] ps IH]; intros m c Hv Hle Hlen; cbn [add_all length] in *.
  - exfalso. lia.
  - unfold multi_add. rewrite Hv. destruct (negb _); [reflexivity|].
    destruct (Nat.leb_spec max_addln_pieces (length (addln m))) as [H|H]; [reflexivity|].
    apply IH; cbn [base addln]; auto; rewrite app_length; cbn [length]; lia.
Qed.

Lemma iter_all_tail : forall f m pos, is_valid (base m) = true -> (1 <= pos)%nat ->
  (length (addln m) + 2 <= pos + f)%nat -> (pos <= S (length (addln m)))%nat ->
  iter_all f m pos =
    map (fun c => mk_blkid (c_blk_num c) (c_nblks c) (m_chunk_num (base m))) (skipn (pos - 1) (addln m)).
Proof.
  induction f as [|f IH]; intros m pos Hv Hp Hf Hpos.
  - exfalso. lia.
  - cbn [iter_all]. unfold iter_next.
    replace (Nat.eqb pos 0) with false by (symmetry; apply Nat.eqb_neq; lia).
    unfold num_pieces. rewrite Hv.
    destruct (Nat.ltb_spec pos (S (length (addln m)))) as [Hlt|Hge].
    + destruct (nth_error (addln m) (pos - 1)) as [c|] eqn:E.
      2:{ apply nth_error_None in E. lia. }
      rewrite IH by (auto; lia).
      replace (S pos - 1)%nat with (S (pos - 1)) by lia.
      assert (Hs : skipn (pos - 1) (addln m) = c :: skipn (S (pos - 1)) (addln m)).
      { clear -E. revert E. generalize (pos - 1)%nat as k. generalize (addln m) as l.
        induction l as [|a l IH]; intros [|k] E; cbn [nth_error skipn] in *; try discriminate.
        - now injection E as ->.
        - now apply IH. }
      rewrite Hs. reflexivity.
    + rewrite skipn_all2 by lia. reflexivity.
Qed.

Lemma iter_all_S : forall f m pos, iter_all (S f) m pos =
  match iter_next m pos with (Some b, pos') => b :: iter_all f m pos' | (None, _) => [] end.
Proof. reflexivity. Qed.

Lemma iterate_valid : forall m, is_valid (base m) = true -> ser_wf (base m) ->
  (length (addln m) <= max_addln_pieces)%nat ->
  iterate m = mk_blkid (m_blk_num (base m)) (m_nblks (base m)) (m_chunk_num (base m))
              :: map (fun c => mk_blkid (c_blk_num c) (c_nblks c) (m_chunk_num (base m))) (addln m).
Proof.
  intros m Hv Hwf Hl. unfold iterate. unfold max_addln_pieces in *.
  change (5 + 2)%nat with 7%nat.
  rewrite iter_all_S. unfold iter_next at 1. cbn [Nat.eqb]. rewrite Hv.
  f_equal. rewrite iter_all_tail by (auto; lia). reflexivity.
Qed.

Definition sum_counts (ps : list (N * N)) : N := fold_right (fun p acc => snd p + acc) 0 ps.

Lemma fold_count_mod : forall (l : list serialized) acc,
  fold_left (fun acc b => (acc + m_nblks b) mod 2 ^ 16) l (acc mod 2 ^ 16)
  = (acc + fold_right (fun b a => m_nblks b + a) 0 l) mod 2 ^ 16.
Proof.
  induction l as [|b l IH]; intros acc; cbn [fold_left fold_right].
  - now rewrite N.add_0_r.
  - rewrite N.add_mod_idemp_l by discriminate. rewrite IH. f_equal. lia.
Qed.

Lemma iterate_pieces : forall p ps c m, c < 2 ^ 16 -> Forall piece_ok (p :: ps) ->
  (length (p :: ps) <= S max_addln_pieces)%nat ->
  add_all multi_empty c (p :: ps) = Some m ->
  iterate m = map (fun q => Ser 0 (fst q) (snd q) c) (p :: ps) /\
  num_pieces m = length (p :: ps) /\
  multi_blk_count m = sum_counts (p :: ps) mod 2 ^ 16.
Proof.
  intros p ps c m Hc Hall Hlen Hadd.
  rewrite add_all_from_empty in Hadd by assumption. injection Hadd as <-.
  inversion Hall as [|x y Hp Hps]; subst x y. destruct Hp as (Hb & Hn0 & Hn).
  assert (Hv : is_valid (Ser 1 (fst p) (snd p) c) = true) by (unfold is_valid; cbn; now apply N.ltb_lt).
  assert (Hit : iterate (Multi (Ser 1 (fst p) (snd p) c) (map (fun q => Chain (fst q) (snd q)) ps))
                = map (fun q => Ser 0 (fst q) (snd q) c) (p :: ps)).
  { rewrite iterate_valid; cbn [base addln m_blk_num m_nblks m_chunk_num].
    - cbn [map]. f_equal.
      + unfold mk_blkid. now apply mk_serialized_small.
      + rewrite map_map. apply map_ext_in. intros q Hq. cbn [c_blk_num c_nblks].
        rewrite Forall_forall in Hps. destruct (Hps q Hq) as (Hqb & Hq0 & Hqn).
        unfold mk_blkid. now apply mk_serialized_small.
    - exact Hv.
    - unfold ser_wf; cbn. repeat split; try assumption; lia.
    - rewrite map_length. cbn [length] in Hlen. lia. }
  split; [exact Hit|]. split.
  - unfold num_pieces. cbn [base addln]. rewrite Hv. cbn [length]. now rewrite map_length.
  - unfold multi_blk_count. rewrite Hit.
    etransitivity; [exact (fold_count_mod _ 0)|]. rewrite N.add_0_l. f_equal.
    unfold sum_counts. generalize (p :: ps) as L. clear.
    induction L as [|q L IH]; [reflexivity|]. cbn [map fold_right m_nblks]. now rewrite IH.
Qed.

(** ** Lemmas in the vocabulary of BlkIdSpec *)
From Verif Require Import BlkIdSpec.

Lemma c01_roundtrip_lemma : forall f e, fits e ->
  names (of_integer (to_integer (id_of f e))) = e /\ flag_of (of_integer (to_integer (id_of f e))) = f
  /\ to_integer (id_of f e) < 18446744073709551616.
Proof.
  intros f [c s n] (Hc & Hs & Hn). cbn [chunk start count] in *. unfold id_of; cbn [chunk start count].
  assert (Hwf : ser_wf (mk_serialized f s n c)) by apply mk_serialized_wf.
  rewrite of_to_integer by exact Hwf.
  split; [|split].
  - rewrite mk_serialized_small by assumption. reflexivity.
  - unfold flag_of, mk_serialized; cbn. now destruct f.
  - exact (to_integer_bound _ Hwf).
Qed.

Lemma c01_injective_lemma : forall f1 e1 f2 e2, fits e1 -> fits e2 ->
  to_integer (id_of f1 e1) = to_integer (id_of f2 e2) -> e1 = e2 /\ f1 = f2.
Proof.
  intros f1 e1 f2 e2 H1 H2 Heq.
  destruct (c01_roundtrip_lemma f1 e1 H1) as (A1 & B1 & _).
  destruct (c01_roundtrip_lemma f2 e2 H2) as (A2 & B2 & _).
  rewrite Heq in A1, B1. split; congruence.
Qed.

Lemma c01_overflow_lemma : exists b1 b2, b1 < 4294967296 /\ b2 < 4294967296 /\ b1 <> b2 /\
  mk_blkid b1 1 0 = mk_blkid b2 1 0.
Proof. exists 5, (5 + 2147483648). vm_compute. repeat split; congruence. Qed.

Lemma build_add_all : forall ps m c, Forall (fun e => chunk e = c) ps ->
  build m ps = add_all m c (map (fun e => (start e, count e)) ps).
Proof.
  induction ps as [|e ps IH]; intros m c Hall; [reflexivity|].
  inversion Hall as [|x y He Hps]; subst. cbn [build add_all map].
  destruct (multi_add m (start e) (count e) (chunk e)); [now apply IH|reflexivity].
Qed.

Lemma scattered_chunk : forall c ps, scattered c ps -> Forall (fun e => chunk e = c) ps.
Proof. intros c ps [_ H]. eapply Forall_impl; [|exact H]. cbn. tauto. Qed.

Lemma scattered_piece : forall c ps, scattered c ps -> Forall piece_ok (map (fun e => (start e, count e)) ps).
Proof.
  intros c ps [_ H]. apply Forall_map. eapply Forall_impl; [|exact H].
  intros e ((Hc & Hs & Hn) & _ & H0). unfold piece_ok. cbn [fst snd]. auto.
Qed.

Lemma total_sum : forall ps, sum_counts (map (fun e => (start e, count e)) ps) = total ps.
Proof. induction ps as [|e ps IH]; [reflexivity|]. cbn [map sum_counts fold_right total snd]. unfold sum_counts in IH. now rewrite IH. Qed.

Lemma c02_lemma : forall c ps m, scattered c ps -> (1 <= length ps)%nat -> build multi_empty ps = Some m ->
  multi_deserialize (multi_serialize m) = Some m /\
  length (multi_serialize m) = serialized_size m /\
  serialized_size m = expected_serialized_size (length ps).
Proof.
  intros c ps m Hs Hlen Hb.
  assert (Hwf : multi_wf m).
  { rewrite (build_add_all _ _ c) in Hb by now apply scattered_chunk.
    eapply add_all_wf; [apply multi_empty_wf|exact Hb]. }
  split; [now apply deserialize_serialize|]. split; [apply serialize_length|].
  destruct ps as [|p ps]; [cbn in Hlen; lia|].
  rewrite (build_add_all _ _ c) in Hb by now apply scattered_chunk.
  assert (Hmax : (length (p :: ps) <= S max_addln_pieces)%nat).
  { destruct (Nat.le_gt_cases (length (p :: ps)) (S max_addln_pieces)) as [H|H]; [exact H|exfalso].
    cbn [map add_all] in Hb. unfold multi_add at 1 in Hb. cbn [is_valid multi_empty base m_nblks N.ltb N.compare] in Hb.
    rewrite add_all_too_many in Hb; [discriminate| | |].
    - pose proof (scattered_piece _ _ Hs) as Hp. cbn [map] in Hp. inversion Hp as [|x y Hx Hy]; subst.
      destruct Hx as (H1 & H2 & H3). unfold is_valid, mk_serialized; cbn [base m_nblks].
      rewrite N.mod_small by assumption. now apply N.ltb_lt.
    - cbn. unfold max_addln_pieces. lia.
    - cbn [addln multi_empty length]. rewrite map_length. cbn [length] in H. lia. }
  cbn [map] in Hb. rewrite add_all_from_empty in Hb.
  - injection Hb as <-. unfold serialized_size, expected_serialized_size; cbn [addln].
    rewrite map_map. destruct ps as [|q ps]; [reflexivity|]. cbn [map length].
    rewrite map_length. reflexivity.
  - now destruct Hs.
  - exact (scattered_piece _ _ Hs).
  - cbn [length]. rewrite map_length. exact Hmax.
Qed.

Lemma c02_pieces_lemma : forall c ps m, scattered c ps -> build multi_empty ps = Some m ->
  exists m', multi_deserialize (multi_serialize m) = Some m' /\ map names (iterate m') = ps.
Proof.
  intros c ps m Hs Hb.
  destruct ps as [|p ps].
  { cbn in Hb. injection Hb as <-. exists multi_empty. now vm_compute. }
  exists m. split.
  { eapply c02_lemma; eauto. cbn [length]. lia. }
  pose proof Hb as Hb'.
  rewrite (build_add_all _ _ c) in Hb by now apply scattered_chunk. cbn [map] in Hb.
  destruct Hs as [Hc Hs'] eqn:EHs. clear EHs.
  assert (Hmax : (length (p :: ps) <= S max_addln_pieces)%nat).
  { destruct (Nat.le_gt_cases (length (p :: ps)) (S max_addln_pieces)) as [H|H]; [exact H|exfalso].
    cbn [add_all] in Hb. unfold multi_add at 1 in Hb. cbn [is_valid multi_empty base m_nblks N.ltb N.compare] in Hb.
    rewrite add_all_too_many in Hb; [discriminate| | |].
    - inversion Hs' as [|x y Hx Hy]; subst. destruct Hx as ((H1 & H2 & H3) & H4 & H5).
      unfold is_valid, mk_serialized; cbn [base m_nblks].
      rewrite N.mod_small by assumption. now apply N.ltb_lt.
    - cbn. unfold max_addln_pieces. lia.
    - cbn [addln multi_empty length]. rewrite map_length. cbn [length] in H. lia. }
  pose proof (scattered_piece c (p :: ps) (conj Hc Hs')) as Hp. cbn [map] in Hp.
  destruct (iterate_pieces _ _ c m Hc Hp ltac:(cbn [length]; rewrite map_length; exact Hmax) Hb) as (Hit & _ & _).
  rewrite Hit. change ((start p, count p) :: map (fun e => (start e, count e)) ps)
    with (map (fun e => (start e, count e)) (p :: ps)).
  rewrite !map_map. rewrite <- (map_id (p :: ps)) at 2. apply map_ext_in.
  intros e He. rewrite Forall_forall in Hs'. destruct (Hs' e He) as (_ & Hce & _).
  unfold names; cbn. destruct e as [ec es en]; cbn in *. now subst.
Qed.

Lemma c03_lemma : forall c ps, scattered c ps -> (length ps <= 6)%nat ->
  exists m, build multi_empty ps = Some m /\
    map names (iterate m) = ps /\ num_pieces m = length ps /\
    multi_blk_count m = total ps mod 65536.
Proof.
  intros c ps Hs Hlen.
  destruct ps as [|p ps].
  { exists multi_empty. vm_compute. repeat split. }
  pose proof (scattered_piece c (p :: ps) Hs) as Hp. cbn [map] in Hp.
  assert (Hb : exists m, build multi_empty (p :: ps) = Some m).
  { rewrite (build_add_all _ _ c) by now apply scattered_chunk. cbn [map].
    rewrite add_all_from_empty; [eauto|now destruct Hs|exact Hp|].
    cbn [length]. rewrite map_length. exact Hlen. }
  destruct Hb as [m Hb]. exists m. split; [exact Hb|].
  split.
  { destruct (c02_pieces_lemma c _ m Hs Hb) as (m' & Hm' & Hit).
    destruct (c02_lemma c _ m Hs ltac:(cbn [length]; lia) Hb) as (Hd & _). congruence. }
  rewrite (build_add_all _ _ c) in Hb by now apply scattered_chunk. cbn [map] in Hb.
  destruct (iterate_pieces _ _ c m (proj1 Hs) Hp
             ltac:(cbn [length]; rewrite map_length; exact Hlen) Hb) as (_ & Hn & Hcnt).
  split.
  - rewrite Hn. cbn [length]. now rewrite map_length.
  - rewrite Hcnt. rewrite <- total_sum. reflexivity.
Qed.

Lemma c03_count_lemma : forall c ps m, scattered c ps -> (length ps <= 6)%nat -> build multi_empty ps = Some m ->
  total ps < 65536 -> multi_blk_count m = total ps.
Proof.
  intros c ps m Hs Hl Hb Ht. destruct (c03_lemma c ps Hs Hl) as (m' & Hb' & _ & _ & Hc).
  assert (m' = m) by congruence. subst. rewrite Hc. now apply N.mod_small.
Qed.

Lemma c03_full_lemma : forall c ps, scattered c ps -> (6 < length ps)%nat -> build multi_empty ps = None.
Proof.
  intros c ps Hs Hlen. rewrite (build_add_all _ _ c) by now apply scattered_chunk.
  destruct ps as [|p ps]; [cbn in Hlen; lia|].
  cbn [map add_all]. unfold multi_add at 1. cbn [is_valid multi_empty base m_nblks N.ltb N.compare].
  destruct Hs as [Hc Hs']. inversion Hs' as [|x y Hx Hy]; subst. destruct Hx as ((H1 & H2 & H3) & H4 & H5).
  apply add_all_too_many.
  - unfold is_valid, mk_serialized; cbn [base m_nblks]. rewrite N.mod_small by assumption. now apply N.ltb_lt.
  - cbn. unfold max_addln_pieces. lia.
  - cbn [addln multi_empty length]. rewrite map_length. unfold max_addln_pieces. cbn [length] in Hlen. lia.
Qed.

Lemma c03_wrap_lemma : exists c ps m, scattered c ps /\ build multi_empty ps = Some m /\
  total ps = 65536 /\ multi_blk_count m = 0.
Proof.
  exists 0, [Extent 0 0 32768; Extent 0 40000 32768].
  eexists. split.
  - split; [lia|]. repeat constructor; cbn; lia.
  - split; [reflexivity|]. split; reflexivity.
Qed.

Lemma c04_eq_lemma : forall a b, compare a b = Eq <-> names a = names b.
Proof.
  intros a b. rewrite compare_spec. unfold names. split.
  - destruct (N.compare_spec (m_chunk_num a) (m_chunk_num b)); try discriminate.
    destruct (N.compare_spec (m_blk_num a) (m_blk_num b)); try discriminate.
    destruct (N.compare_spec (m_nblks a) (m_nblks b)); try discriminate. intros _. congruence.
  - intros [= -> -> ->]. now rewrite !N.compare_refl.
Qed.

Lemma c04_antisym_lemma : forall a b, compare b a = CompOpp (compare a b).
Proof.
  intros a b. rewrite !compare_spec.
  rewrite (N.compare_antisym (m_chunk_num a)), (N.compare_antisym (m_blk_num a)), (N.compare_antisym (m_nblks a)).
  destruct (m_chunk_num a ?= m_chunk_num b); cbn; try reflexivity.
  destruct (m_blk_num a ?= m_blk_num b); cbn; reflexivity.
Qed.

Lemma compare_lt : forall a b, compare a b = Lt <->
  (m_chunk_num a < m_chunk_num b \/ m_chunk_num a = m_chunk_num b /\
   (m_blk_num a < m_blk_num b \/ m_blk_num a = m_blk_num b /\ m_nblks a < m_nblks b)).
Proof.
  intros a b. rewrite compare_spec.
  destruct (N.compare_spec (m_chunk_num a) (m_chunk_num b));
  destruct (N.compare_spec (m_blk_num a) (m_blk_num b));
  destruct (N.compare_spec (m_nblks a) (m_nblks b)); split; intros; try discriminate; try reflexivity; lia.
Qed.

Lemma c04_trans_lemma : forall a b c, compare a b = Lt -> compare b c = Lt -> compare a c = Lt.
Proof. intros a b c. rewrite !compare_lt. lia. Qed.
