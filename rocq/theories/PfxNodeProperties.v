(** Theorems about prefix nodes (C42, C77-C82). *)
From Coq Require Import NArith ZArith List Bool Arith Lia.
From Verif Require Import Base PfxNodeModel PfxNodeSpec PfxNodeProofs.
Import ListNotations.
Local Open Scope N_scope.

Definition fresh : state := fun _ => new_node.
Definition nothing : sstate := fun _ => [].

Lemma fresh_rel : forall c g ex, codec_ok c -> geom_ok g -> rel c g ex fresh nothing.
Proof. intros c g ex Hc Hg a. split; [apply new_inv; assumption|reflexivity]. Qed.

(** C42: whatever operations are done, the nodes hold the entries that the
    answers speak of, and suffixes and prefixes stay apart.  The one way out is
    the assertion of an update. *)
Theorem c42_prefix_node_holds_entries : forall c g ops, codec_ok c -> geom_ok g ->
  legal_run c g fresh ops ->
  match run c g fresh ops with
  | Ok (s, xs) =>
      exists ss, sruns (vsh c) nothing ops xs = Some ss /\
        (forall a, entries c (s a) = ss a) /\
        (forall a x, In x (n_sufs (s a)) ->
           g_base g + N.of_nat (length (n_sufs (s a))) * g_ssz g + N.of_nat (S (fst x)) * g_psz g <= g_data g)
  | Stop NoRoom => exists a i k v, In (Update a i k v) ops
  | Stop _ => False
  end.
Proof.
  intros c g ops Hc Hg L.
  destruct (run_ok c g Hc Hg ops true fresh nothing (fresh_rel c g true Hc Hg) L) as [[U E]|[s [xs [ss [E [ES R]]]]]]; rewrite E.
  - apply existsb_exists in U. destruct U as [[] [Ho U]]; try discriminate. eauto.
  - exists ss. split; [exact ES|]. split; [intros a; apply R|]. intros a x Hx. destruct (R a) as [[K F] _].
    assert (Hs : n_set (s a) (fst x) = true) by (apply (k_in _ _ _ _ K); now apply in_map).
    apply (k_tail _ _ _ _ K) in Hs. assert (N.of_nat (S (fst x)) * g_psz g <= N.of_nat (n_tail (s a)) * g_psz g) by (apply N.mul_le_mono_r; lia).
    unfold count in F. lia.
Qed.
Print Assumptions c42_prefix_node_holds_entries.

(** C42: without updates of single entries, a slot is taken exactly while it has
    users, and its count is their number. *)
Theorem c42_prefix_counts : forall c g ops s xs, codec_ok c -> geom_ok g ->
  legal_run c g fresh ops -> (forall a i k v, ~ In (Update a i k v) ops) ->
  run c g fresh ops = Ok (s, xs) ->
  forall a t, (n_set (s a) t = true <-> (0 < users (s a) t)%nat) /\
    (n_set (s a) t = true -> fst (n_slot (s a) t) = N.of_nat (users (s a) t)) /\
    n_used (s a) = length (filter (n_set (s a)) (seq 0 (g_bits g))).
Proof.
  intros c g ops s xs Hc Hg L HU E a t.
  destruct (run_ok c g Hc Hg ops true fresh nothing (fresh_rel c g true Hc Hg) L) as [[U _]|[s' [xs' [ss [E' [_ R]]]]]].
  - exfalso. apply existsb_exists in U. destruct U as [[] [Ho U]]; try discriminate. eapply HU, Ho.
  - rewrite E in E'. injection E' as <- <-. replace (existsb is_update ops) with false in R.
    2:{ symmetry. apply not_true_is_false. intros U. apply existsb_exists in U. destruct U as [[] [Ho U]]; try discriminate. eapply HU, Ho. }
    destruct (R a) as [[K F] _]. cbn [negb andb] in K.
    assert (HUs : users (s a) t = uses t (map fst (n_sufs (s a)))).
    { unfold users, uses. clear. induction (n_sufs (s a)) as [|x l IH]; [reflexivity|]. cbn. destruct (fst x =? t)%nat; cbn; now rewrite IH. }
    rewrite HUs. split; [|split].
    + split; intros H; [destruct (k_ex _ _ _ _ K eq_refl t H); lia|]. apply (k_in _ _ _ _ K), uses_in. lia.
    + intros H. apply (k_ex _ _ _ _ K eq_refl t H).
    + apply (k_used _ _ _ _ K).
Qed.
Print Assumptions c42_prefix_counts.

(** ** Examples *)

(** Keys cut at 4 bits; values with a base and an offset of 16 bits that alone is
    shifted (TestIntervalValue, btree_test_kvs.hpp). *)
Definition fold_z (z : Z) : N := if (0 <=? z)%Z then Z.to_N (2 * z) else Z.to_N (-2 * z - 1).
Definition unfold_z (n : N) : Z := if N.even n then (Z.of_N n / 2)%Z else (- (Z.of_N n + 1) / 2)%Z.
Definition test_codec : codec :=
  Codec (fun k => fold_z (k / 16)) (fun k => Z.to_N (k mod 16)) (fun p s => (unfold_z p * 16 + Z.of_N s)%Z)
        (fun v => fold_z (v / 65536)) (fun v => Z.to_N (v mod 65536)) (fun p s => (unfold_z p * 65536 + Z.of_N s)%Z)
        (fun v d => (v / 65536 * 65536 + (v mod 65536 + d) mod 65536)%Z).

Lemma unfold_fold : forall z, unfold_z (fold_z z) = z.
Proof.
  intros z. unfold unfold_z, fold_z. destruct (Z.leb_spec 0 z) as [H|H].
  - replace (N.even (Z.to_N (2 * z))) with true; [rewrite Z2N.id by lia; lia|].
    symmetry. apply N.even_spec. exists (Z.to_N z). lia.
  - replace (N.even (Z.to_N (-2 * z - 1))) with false.
    + rewrite Z2N.id by lia. lia.
    + symmetry. apply not_true_is_false. intros E. apply N.even_spec in E. destruct E as [m E]. lia.
Qed.
Lemma test_codec_ok : codec_ok test_codec.
Proof.
  split; intros z; cbn [kj kp ks vj vp vs test_codec]; rewrite unfold_fold, Z2N.id by (apply Z.mod_pos_bound; lia);
    match goal with |- (?a / ?m * ?m + _)%Z = _ => pose proof (Z.div_mod a m ltac:(lia)); lia end.
Qed.
Lemma test_shift : forall v d, vp test_codec (vsh test_codec v d) = vp test_codec v.
Proof.
  intros v d. cbn [vp vsh test_codec]. f_equal. rewrite Z.div_add_l by lia.
  rewrite (Z.div_small ((v mod 65536 + d) mod 65536)) by (apply Z.mod_pos_bound; lia). lia.
Qed.

Definition geom_okb (g : geom) : bool :=
  (0 <? g_psz g) && (0 <? g_ssz g) && (4 <=? g_base g) && (g_base g <=? g_data g) && (g_data g <? 65536) &&
  (g_data g <? g_base g + N.of_nat (S (g_bits g)) * g_psz g + g_ssz g).
Lemma geom_okb_ok : forall g, geom_okb g = true -> geom_ok g.
Proof. intros g H. unfold geom_okb in H. unfold geom_ok. rewrite !andb_true_iff in H. lia. Qed.

(** The sizes of test_mem_btree: nodes of 4096 bytes with 56 of header, prefix
    entries of 10 bytes, suffix entries of 8. *)
Example test_geometry : geom_ok (geometry 4040 10 8 8).
Proof. apply geom_okb_ok. vm_compute. reflexivity. Qed.
Definition small : geom := geometry 172 10 8 8.
Example small_geometry : geom_ok small.
Proof. apply geom_okb_ok. vm_compute. reflexivity. Qed.

Fixpoint sorted_b (l : list (Z * Z)) : bool :=
  match l with [] => true | e :: l' => forallb (fun x => (fst e <? fst x)%Z) l' && sorted_b l' end.
Lemma sorted_b_ok : forall l, sorted_b l = true -> sorted l.
Proof.
  induction l as [|e l IH]; cbn; [trivial|]. rewrite andb_true_iff. intros [H1 H2]. split; [|auto].
  apply Forall_forall. intros x Hx. rewrite forallb_forall in H1. specialize (H1 x Hx). lia.
Qed.
Lemma keys_from_in : forall n k x, (k <= x < k + Z.of_nat n)%Z -> In x (keys_from k n).
Proof.
  induction n as [|n IH]; intros k x H; [lia|]. cbn. destruct (Z.eq_dec k x) as [|Hne]; [now left|right]. apply IH. lia.
Qed.
Lemma keys_of_in : forall r k, within r k = true -> In k (keys_of r).
Proof.
  intros r k H. apply filter_In. split; [|exact H]. apply keys_from_in. unfold within in H. destruct (r_sincl r), (r_eincl r); lia.
Qed.

Definition legal_b (c : codec) (g : geom) (s : state) (o : op) : bool :=
  match o with
  | Insert a i _ _ => (i <=? length (entries c (s a)))%nat
  | Update a i _ _ | Remove a i => (i <? length (entries c (s a)))%nat
  | MultiRemove a _ _ => sorted_b (entries c (s a))
  | MultiPut a r first v kd _ =>
      sorted_b (entries c (s a)) &&
      forallb (fun k => vp c (vsh c v (k - first)%Z) =? vp c v) (keys_of r) &&
      match kd with
      | Update_ => forallb (fun k => existsb (fun e => (fst e =? k)%Z) (entries c (s a))) (keys_of r)
      | _ => true
      end
  | MoveTo a b _ _ => negb (a =? b)%nat
  | CopySize a b _ size => negb (a =? b)%nat && (size <=? avail g (s a))
  | CopyEntries a b _ n =>
      negb (a =? b)%nat && ((N.of_nat n * (g_psz g + g_ssz g) <=? avail g (s a)) ||
        negb (has_room g (s a) n) && (N.of_nat n * (g_psz g + g_ssz g) <=? avail_compact g (s a)))
  | Clear _ => true
  end.
Lemma legal_b_ok : forall c g s o, legal_b c g s o = true -> legal c g s o.
Proof.
  intros c g s [] H; cbn [legal legal_b] in *.
  - lia.
  - lia.
  - lia.
  - now apply sorted_b_ok.
  - rewrite !andb_true_iff in H. destruct H as [[H1 H2] H3]. split; [now apply sorted_b_ok|]. rewrite forallb_forall in H2.
    split; [intros k Hk; apply keys_of_in in Hk; specialize (H2 k Hk); lia|]. intros -> k Hk.
    rewrite forallb_forall in H3. apply keys_of_in in Hk. specialize (H3 k Hk). apply existsb_exists in H3.
    destruct H3 as [e [He Hk']]. apply in_map_iff. exists e. split; [lia|assumption].
  - lia.
  - split; [|]; lia.
  - rewrite andb_true_iff, orb_true_iff, andb_true_iff, negb_true_iff in H. destruct H as [H1 H2]. split; [lia|].
    destruct H2 as [H2|[H2 H3]]; [left; lia|right; split; [now apply negb_true_iff|lia]].
  - exact I.
Qed.
Fixpoint legal_runb (c : codec) (g : geom) (s : state) (ops : list op) : bool :=
  match ops with
  | [] => true
  | o :: r => legal_b c g s o && match step c g s o with Ok (s', _) => legal_runb c g s' r | Stop _ => true end
  end.
Lemma legal_runb_ok : forall c g ops s, legal_runb c g s ops = true -> legal_run c g s ops.
Proof.
  intros c g. induction ops as [|o ops IH]; intros s H; cbn in *; [trivial|]. rewrite andb_true_iff in H. destruct H as [H1 H2].
  split; [now apply legal_b_ok|]. intros s' x E. rewrite E in H2. auto.
Qed.

Definition incl (a b : Z) : krange := KRange a true b true.

(** A history with a range put that shares one prefix and starts another, one
    that fills the node, a move, updates, removals, and copies with and without
    compaction. *)
Definition history : list op :=
  [ MultiPut 0 (incl 12 18) 12 65536 Upsert_ None;
    Insert 0 0 3 7;
    Update 0 0 3 8;
    MultiPut 0 (incl 14 15) 14 131072 Update_ (Some (fun k _ _ => if (k =? 15)%Z then Drop else Replace));
    MoveTo 0 1 false 3;
    Remove 1 0;
    CopyEntries 1 0 0 2;
    MultiRemove 0 (KRange 3 false 13 true) (Some (fun _ v => negb (v =? 65536)%Z));
    MultiPut 0 (incl 20 60) 20 5 Insert_ None;
    CopySize 1 0 1 36;
    Clear 1;
    CopyEntries 1 0 2 3 ].

Example c42_legal : legal_run test_codec small fresh history.
Proof. apply legal_runb_ok. vm_compute. reflexivity. Qed.
Example c42_runs :
  match run test_codec small fresh history with
  | Ok (s, xs) =>
      (map fst (entries test_codec (s 0%nat)) = [3; 12; 14; 20; 21; 22; 23; 24; 25; 26; 27; 28] /\
       entries test_codec (s 1%nat) = [(14, 131072); (20, 5); (21, 6)])%Z /\
      xs = [Yes; Yes; Yes; Yes; Num 3; Yes; Num 2; Num 1; Upto 29; Num 2; Yes; Num 3]
  | Stop _ => False
  end.
Proof. vm_compute. auto. Qed.

Definition history_without : list op := filter (fun o => negb (is_update o)) history.
Example c42_counts_legal : legal_run test_codec small fresh history_without /\
  (forall a i k v, ~ In (Update a i k v) history_without).
Proof.
  split; [apply legal_runb_ok; vm_compute; reflexivity|]. intros a i k v H. apply filter_In in H. now destruct H.
Qed.
Example c42_counts_runs :
  match run test_codec small fresh history_without with
  | Ok (s, _) => users (s 0%nat) 5 = 0%nat /\ n_used (s 0%nat) = 4%nat /\
      map (fun t => users (s 0%nat) t) (seq 0 4) = [1; 10; 1; 1]%nat
  | Stop _ => False
  end.
Proof. vm_compute. auto. Qed.

(** ** What does not hold *)

Definition tiny : geom := geometry 100 10 8 8.
Example tiny_geometry : geom_ok tiny.
Proof. apply geom_okb_ok. vm_compute. reflexivity. Qed.

(** C77: remove(idx_s, idx_e) leaves entries of the index range in the node and
    can take others. *)
Theorem c77_remove_range_refuted : exists c g ops s xs nd, codec_ok c /\ geom_ok g /\ legal_run c g fresh ops /\
  run c g fresh ops = Ok (s, xs) /\ entries c (s 0%nat) = [(1, 10); (2, 20); (3, 30); (4, 40)]%Z /\
  remove_range (s 0%nat) 0 2 = Ok nd /\ entries c nd = [(2, 20); (4, 40)]%Z.
Proof.
  pose (ops := [Insert 0 0 1 10; Insert 0 1 2 20; Insert 0 2 3 30; Insert 0 3 4 40]%Z).
  exists test_codec, tiny, ops.
  destruct (run test_codec tiny fresh ops) as [[s xs]|] eqn:E; [|vm_compute in E; discriminate].
  destruct (remove_range (s 0%nat) 0 2) as [nd|] eqn:E2; [|vm_compute in E; injection E as <- <-; vm_compute in E2; discriminate].
  exists s, xs, nd. vm_compute in E. injection E as <- <-. vm_compute in E2. injection E2 as <-.
  split; [exact test_codec_ok|]. split; [exact tiny_geometry|]. split; [apply legal_runb_ok; vm_compute; reflexivity|].
  split; [reflexivity|]. split; [vm_compute; reflexivity|]. split; vm_compute; reflexivity.
Qed.
Print Assumptions c77_remove_range_refuted.

(** C78: one entry, updated again and again, fills the node: the update after
    that stops in its assertion. *)
Theorem c78_update_refuted : exists c g n, codec_ok c /\ geom_ok g /\
  (forall s xs, run c g fresh (Insert 0 0 1 10 :: repeat (Update 0 0 1 11) n)%Z = Ok (s, xs) ->
     length (entries c (s 0%nat)) = 1%nat /\ 8 * (g_psz g + g_ssz g) <= g_data g - g_base g) /\
  legal_run c g fresh (Insert 0 0 1 10 :: repeat (Update 0 0 1 11) (S n))%Z /\
  (exists s xs, run c g fresh (Insert 0 0 1 10 :: repeat (Update 0 0 1 11) n)%Z = Ok (s, xs)) /\
  run c g fresh (Insert 0 0 1 10 :: repeat (Update 0 0 1 11) (S n))%Z = Stop NoRoom.
Proof.
  exists test_codec, small, 13%nat. split; [exact test_codec_ok|]. split; [exact small_geometry|].
  split.
  { intros s xs E. vm_compute in E. injection E as <- <-. split; [vm_compute; reflexivity|vm_compute; discriminate]. }
  split; [apply legal_runb_ok; vm_compute; reflexivity|]. split; [|vm_compute; reflexivity].
  vm_compute. eauto.
Qed.
Print Assumptions c78_update_refuted.

(** C79: a range put of kind UPDATE passes over a key that is there when a key
    before it in the range is not. *)
Theorem c79_update_gap_refuted : exists c g ops s xs, codec_ok c /\ geom_ok g /\
  run c g fresh ops = Ok (s, xs) /\ sorted (entries c (s 0%nat)) /\ entries c (s 0%nat) = [(1, 10); (3, 30)]%Z /\
  exists nd, multi_put c g (s 0%nat) (incl 2 3) 2 50 Update_ None = Ok (nd, Done) /\
    entries c nd = [(1, 10); (3, 30)]%Z /\
    fold_left (sput (vsh c) Update_ None 2 50) (keys_of (incl 2 3)) (entries c (s 0%nat)) = [(1, 10); (3, 51)]%Z.
Proof.
  pose (ops := [Insert 0 0 1 10; Insert 0 1 3 30]%Z). exists test_codec, tiny, ops.
  destruct (run test_codec tiny fresh ops) as [[s xs]|] eqn:E; [|vm_compute in E; discriminate].
  exists s, xs. vm_compute in E. injection E as <- <-. split; [exact test_codec_ok|]. split; [exact tiny_geometry|].
  split; [reflexivity|]. split; [apply sorted_b_ok; vm_compute; reflexivity|]. split; [vm_compute; reflexivity|].
  eexists. split; [vm_compute; reflexivity|]. split; vm_compute; reflexivity.
Qed.
Print Assumptions c79_update_gap_refuted.

(** C80: copying entries that share no prefix into a node runs suffixes into
    prefixes although the node says it has room for that many entries. *)
Theorem c80_copy_refuted : exists c g ops s xs n, codec_ok c /\ geom_ok g /\ legal_run c g fresh ops /\
  run c g fresh ops = Ok (s, xs) /\ has_room g (s 0%nat) n = true /\ length (entries c (s 1%nat)) = n /\
  copy_by_entries g (s 0%nat) (s 1%nat) 0 n = Stop Clobber.
Proof.
  pose (ops := [Insert 0 0 100 10; Insert 1 0 20 20; Insert 1 1 40 30; Insert 1 2 60 40; Insert 1 3 80 40]%Z).
  exists test_codec, tiny, ops.
  destruct (run test_codec tiny fresh ops) as [[s xs]|] eqn:E; [|vm_compute in E; discriminate].
  exists s, xs, 4%nat. vm_compute in E. injection E as <- <-. split; [exact test_codec_ok|]. split; [exact tiny_geometry|].
  split; [apply legal_runb_ok; vm_compute; reflexivity|].
  split; [reflexivity|]. split; [vm_compute; reflexivity|]. split; vm_compute; reflexivity.
Qed.
Print Assumptions c80_copy_refuted.

(** C81: a node size for which reqd_bitset_size gives fewer bits than there is
    room for prefixes; an insert that has room uses a slot behind the node. *)
Theorem c81_bitset_refuted : exists c data psz ssz ops, codec_ok c /\
  let g := geometry data psz ssz 8 in
  g_base g + 65 * (psz + ssz) <= g_data g /\
  legal_run c g fresh ops /\ run c g fresh ops = Stop Full.
Proof.
  exists test_codec, 6902, 100, 6, (map (fun i => Insert 0 i (Z.of_nat i) 0%Z) (seq 0 65)).
  split; [exact test_codec_ok|]. cbv zeta. split; [vm_compute; discriminate|]. split; [apply legal_runb_ok; vm_compute; reflexivity|].
  vm_compute. reflexivity.
Qed.
Print Assumptions c81_bitset_refuted.

(** C82: a value whose shift reaches into its prefix. *)
Definition carry_codec : codec :=
  Codec (kp test_codec) (ks test_codec) (kj test_codec) (vp test_codec) (vs test_codec) (vj test_codec) Z.add.
Lemma carry_codec_ok : codec_ok carry_codec.
Proof. exact test_codec_ok. Qed.

Theorem c82_carry_refuted : exists c g, codec_ok c /\ geom_ok g /\
  (exists nd, multi_put c g new_node (incl 2 2) 1 65535 Upsert_ None = Ok (nd, Done) /\
     n_used nd = 2%nat /\ exists t, n_set nd t = true /\ users nd t = 0%nat) /\
  (exists ops s xs, legal_run c g fresh ops /\ run c g fresh ops = Ok (s, xs) /\ has_room g (s 0%nat) 1 = true /\
     multi_put c g (s 0%nat) (incl 6 6) 5 65535 Upsert_ None = Stop Clobber).
Proof.
  exists carry_codec, (geometry 92 10 8 8). split; [exact carry_codec_ok|]. split; [apply geom_okb_ok; vm_compute; reflexivity|]. split.
  - eexists. split; [vm_compute; reflexivity|]. split; [vm_compute; reflexivity|]. exists 0%nat. split; vm_compute; reflexivity.
  - pose (ops := [Insert 0 0 1 10; Insert 0 1 2 20; Insert 0 2 3 30]%Z). exists ops.
    destruct (run carry_codec (geometry 92 10 8 8) fresh ops) as [[s xs]|] eqn:E; [|vm_compute in E; discriminate].
    exists s, xs. vm_compute in E. injection E as <- <-.
    split; [apply legal_runb_ok; vm_compute; reflexivity|]. split; [reflexivity|]. split; vm_compute; reflexivity.
Qed.
Print Assumptions c82_carry_refuted.
