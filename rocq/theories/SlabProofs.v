(** Proofs about the slab cache model. *)
From Coq Require Import NArith ZArith List Lia Bool Permutation.
From Coq Require Import ZifyBool ZifyNat ZifyN.
From Verif Require Import Base ExtSpec ExtFacts SlabModel SlabSpec.
Import ListNotations.
Local Open Scope N_scope.

(** ** Lists *)
Lemma set_nth_length : forall A i (x : A) l, length (set_nth i x l) = length l.
Proof. induction i as [|i IH]; destruct l; simpl; auto. Qed.

Lemma nth_error_set_nth_eq : forall A i (x y : A) l, nth_error l i = Some y ->
  nth_error (set_nth i x l) i = Some x.
Proof. induction i as [|i IH]; destruct l; simpl; intros H; try discriminate; eauto. Qed.

Lemma nth_error_set_nth_ne : forall A i j (x : A) l, i <> j ->
  nth_error (set_nth i x l) j = nth_error l j.
Proof.
  induction i as [|i IH]; destruct l, j; simpl; intros H; try congruence; auto.
Qed.

Lemma flat_map_set_nth : forall A B (f : A -> list B) i x y l, nth_error l i = Some x ->
  Permutation (flat_map f (set_nth i y l) ++ f x) (flat_map f l ++ f y).
Proof.
  induction i as [|i IH]; destruct l as [|h t]; simpl; intros H; try discriminate.
  - injection H as ->. rewrite Permutation_app_comm. rewrite <- app_assoc.
    apply Permutation_app_head. apply Permutation_app_comm.
  - rewrite <- !app_assoc. apply Permutation_app_head. now apply IH.
Qed.

(** ** Levels *)
Lemma push_levels_spec : forall order ls e ls', push_levels order ls e = Some ls' ->
  Permutation (flat_map lv_q ls') (e :: flat_map lv_q ls) /\ length ls' = length ls.
Proof.
  induction order as [|i rest IH]; simpl; intros ls e ls' H; [discriminate|].
  destruct (nth_error ls i) as [l|] eqn:Hn; [|discriminate].
  destruct (level_write l e) as [l'|] eqn:Hw.
  - injection H as <-. split; [|apply set_nth_length].
    unfold level_write in Hw. destruct (Nat.ltb _ _); [|discriminate]. injection Hw as <-.
    pose proof (flat_map_set_nth _ _ lv_q i l (Level (lv_cap l) (lv_q l ++ [e])) ls Hn) as Hp.
    cbn [lv_q] in Hp. rewrite app_assoc in Hp.
    apply (Permutation_app_inv_r (lv_q l)).
    rewrite Hp. rewrite <- Permutation_cons_append. reflexivity.
  - eapply IH. exact H.
Qed.

Lemma pop_levels_spec : forall order ls e ls', pop_levels order ls = Some (e, ls') ->
  Permutation (flat_map lv_q ls) (e :: flat_map lv_q ls') /\ length ls' = length ls.
Proof.
  induction order as [|i rest IH]; simpl; intros ls e ls' H; [discriminate|].
  destruct (nth_error ls i) as [l|] eqn:Hn; [|discriminate].
  destruct (level_read l) as [[e0 l']|] eqn:Hr.
  - injection H as <- <-. split; [|apply set_nth_length].
    unfold level_read in Hr. destruct (lv_q l) as [|e1 q] eqn:Hq; [discriminate|]. injection Hr as <- <-.
    pose proof (flat_map_set_nth _ _ lv_q i l (Level (lv_cap l) q) ls Hn) as Hp.
    rewrite Hq in Hp. cbn [lv_q] in Hp.
    apply (Permutation_app_inv_r q).
    rewrite <- Hp. rewrite <- Permutation_middle. reflexivity.
  - eapply IH. exact H.
Qed.

Lemma level_order_bound : forall n s i, In i (level_order n s) -> (i < n)%nat.
Proof.
  intros n s i H. unfold level_order in H. apply in_map_iff in H. destruct H as [d [<- Hd]].
  apply in_seq in Hd. apply Nat.mod_upper_bound. lia.
Qed.

Lemma level_order_complete : forall n s i, (i < n)%nat -> (s < n)%nat -> In i (level_order n s).
Proof.
  intros n s i Hi Hs. unfold level_order. apply in_map_iff.
  destruct (Nat.leb_spec s i) as [Hle|Hlt].
  - exists (i - s)%nat. split; [|apply in_seq; lia].
    replace (s + (i - s))%nat with i by lia. now apply Nat.mod_small.
  - exists (n - s + i)%nat. split; [|apply in_seq; lia].
    replace (s + (n - s + i))%nat with (i + 1 * n)%nat by lia.
    rewrite Nat.mod_add by lia. now apply Nat.mod_small.
Qed.

Lemma pop_levels_none : forall order ls, (forall i, In i order -> (i < length ls)%nat) ->
  pop_levels order ls = None -> forall i l, In i order -> nth_error ls i = Some l -> lv_q l = [].
Proof.
  induction order as [|j rest IH]; simpl; intros ls Hb H i l Hin Hn; [contradiction|].
  destruct (nth_error ls j) as [l0|] eqn:Hj.
  - destruct (level_read l0) as [[e0 l']|] eqn:Hr; [discriminate|].
    destruct Hin as [->|Hin].
    + rewrite Hn in Hj. injection Hj as ->. unfold level_read in Hr. destruct (lv_q l0); [reflexivity|discriminate].
    + eapply IH; eauto.
  - exfalso. apply nth_error_None in Hj. specialize (Hb j (or_introl eq_refl)). lia.
Qed.

Lemma clamp_bound : forall n l, n <> O -> (clamp_level n l < n)%nat.
Proof. intros n l H. unfold clamp_level. destruct (Nat.leb_spec n l); lia. Qed.

Lemma flat_map_nil_all : forall A B (f : A -> list B) l, (forall i x, nth_error l i = Some x -> f x = []) ->
  flat_map f l = [].
Proof.
  induction l as [|h t IH]; intros H; [reflexivity|]. simpl.
  rewrite (H O h eq_refl). apply IH. intros i x Hx. now apply (H (S i)).
Qed.

(** ** push/pop on the cache *)
Lemma wf_set : forall c i s s', wf c -> nth_error c i = Some s -> wf_slab i s' -> wf (set_nth i s' c).
Proof.
  intros c i s s' Hwf Hn Hs j x Hx. destruct (Nat.eq_dec i j) as [->|Hne].
  - rewrite (nth_error_set_nth_eq _ _ _ _ _ Hn) in Hx. now injection Hx as <-.
  - rewrite nth_error_set_nth_ne in Hx by assumption. now apply Hwf.
Qed.

Lemma push_slab_spec : forall c i s e only, wf c -> nth_error c i = Some s -> e_cnt e = 2 ^ N.of_nat i ->
  exists c' p, push_slab c i e only = Some (c', p) /\ wf c' /\ length c' = length c /\
    if p then Permutation (entries c') (e :: entries c) else c' = c.
Proof.
  intros c i s e only Hwf Hn He. unfold push_slab. rewrite Hn.
  destruct (Hwf i s Hn) as [Hsz [Hlv Hall]].
  unfold slab_push. destruct (length (sl_levels s)) as [|n] eqn:Hlen.
  { destruct (sl_levels s); [congruence|discriminate]. }
  cbv zeta. match goal with |- context [push_levels ?o _ _] => set (ord := o) end.
  destruct (push_levels ord (sl_levels s) e) as [ls|] eqn:Hp.
  - apply push_levels_spec in Hp. destruct Hp as [Hp Hl].
    eexists _, true. split; [reflexivity|].
    assert (Hs' : wf_slab i (Slab (sl_size s) ls)).
    { split; [exact Hsz|]. split.
      - cbn. intros ->. simpl in Hl. lia.
      - unfold slab_entries. cbn [sl_levels]. eapply Forall_perm; [symmetry; exact Hp|]. constructor; assumption. }
    split; [eapply wf_set; eauto|]. split; [apply set_nth_length|].
    pose proof (flat_map_set_nth _ _ slab_entries i s (Slab (sl_size s) ls) c Hn) as Hf.
    unfold slab_entries in Hf at 2 4. cbn [sl_levels] in Hf. rewrite Hp in Hf.
    apply (Permutation_app_inv_r (flat_map lv_q (sl_levels s))).
    unfold entries. rewrite Hf. rewrite <- Permutation_middle. reflexivity.
  - exists c, false. auto.
Qed.

Lemma pop_slab_spec : forall c i s lvl, wf c -> nth_error c i = Some s ->
  exists c' r, pop_slab c i lvl = Some (c', r) /\ wf c' /\ length c' = length c /\
    match r with
    | Some e => e_cnt e = 2 ^ N.of_nat i /\ Permutation (entries c) (e :: entries c') /\
                (forall j, j <> i -> nth_error c' j = nth_error c j)
    | None => c' = c /\ slab_entries s = []
    end.
Proof.
  intros c i s lvl Hwf Hn. unfold pop_slab. rewrite Hn.
  destruct (Hwf i s Hn) as [Hsz [Hlv Hall]].
  unfold slab_pop. destruct (length (sl_levels s)) as [|n] eqn:Hlen.
  { destruct (sl_levels s); [congruence|discriminate]. }
  rewrite <- Hlen.
  destruct (pop_levels _ (sl_levels s)) as [[e ls]|] eqn:Hp.
  - apply pop_levels_spec in Hp. destruct Hp as [Hp Hl].
    eexists _, (Some e). split; [reflexivity|].
    assert (Hall' := Forall_perm _ _ _ _ Hp Hall).
    inversion Hall' as [|x y He Hrest]; subst.
    assert (Hs' : wf_slab i (Slab (sl_size s) ls)).
    { split; [exact Hsz|]. split; [|exact Hrest]. cbn. intros ->. simpl in Hl. lia. }
    split; [eapply wf_set; eauto|]. split; [apply set_nth_length|]. split; [exact He|].
    pose proof (flat_map_set_nth _ _ slab_entries i s (Slab (sl_size s) ls) c Hn) as Hf.
    unfold slab_entries in Hf at 2 4. cbn [sl_levels] in Hf. rewrite Hp in Hf.
    split; [|intros j Hj; apply nth_error_set_nth_ne; congruence].
    apply (Permutation_app_inv_r (flat_map lv_q ls)).
    unfold entries. rewrite <- Hf. rewrite <- Permutation_middle. reflexivity.
  - exists c, None. split; [reflexivity|]. split; [exact Hwf|]. split; [reflexivity|]. split; [reflexivity|].
    unfold slab_entries. apply flat_map_nil_all. intros j l Hj.
    assert (Hjn : (j < length (sl_levels s))%nat) by (apply nth_error_Some; congruence).
    refine (pop_levels_none _ _ _ Hp j l _ Hj).
    + intros k Hk. eapply level_order_bound. exact Hk.
    + apply level_order_complete; [exact Hjn|]. apply clamp_bound. lia.
Qed.

(** ** The lookup tables *)
Definition slab_tbl_ok : bool :=
  forallb (fun n => Nat.eqb (find_slab (N.of_nat n)) (N.to_nat (N.log2_up (N.of_nat n)))) (seq 0 257).
Definition rd_tbl_ok : bool :=
  forallb (fun n => match find_round_down_slab (N.of_nat n) with
                    | Some (i, x) => Nat.eqb i (N.to_nat (N.log2 (N.of_nat n))) &&
                                     (x =? N.of_nat n - 2 ^ N.log2 (N.of_nat n))
                    | None => false end) (seq 1 256).
Lemma slab_tbl_check : slab_tbl_ok = true. Proof. vm_compute. reflexivity. Qed.
Lemma rd_tbl_check : rd_tbl_ok = true. Proof. vm_compute. reflexivity. Qed.

Lemma find_slab_spec : forall n, n < 65536 -> find_slab n = N.to_nat (N.log2_up n).
Proof.
  intros n Hn. destruct (N.leb_spec 257 n) as [Hge|Hlt].
  - unfold find_slab, w16. rewrite N.mod_small by lia.
    destruct (N.leb_spec 257 n); [|lia].
    rewrite N.log2_up_eqn by lia. rewrite N.sub_1_r. lia.
  - pose proof slab_tbl_check as H. unfold slab_tbl_ok in H. rewrite forallb_forall in H.
    specialize (H (N.to_nat n)). rewrite N2Nat.id in H.
    apply Nat.eqb_eq. apply H. apply in_seq. lia.
Qed.

Lemma round_down_spec : forall n, 0 < n -> n < 65535 ->
  find_round_down_slab n = Some (N.to_nat (N.log2 n), n - 2 ^ N.log2 n).
Proof.
  intros n H0 Hn. destruct (N.leb_spec 257 n) as [Hge|Hlt].
  - unfold find_round_down_slab. unfold w16. rewrite (N.mod_small n 65536) by lia. cbv zeta.
    destruct (N.leb_spec 257 n); [|lia].
    rewrite find_slab_spec by lia. rewrite N.log2_up_eqn by lia.
    rewrite N.sub_1_r || idtac.
    replace (N.pred (n + 1)) with n by lia.
    replace (N.to_nat (N.succ (N.log2 n))) with (S (N.to_nat (N.log2 n))) by lia.
    rewrite N2Nat.id. reflexivity.
  - pose proof rd_tbl_check as H. unfold rd_tbl_ok in H. rewrite forallb_forall in H.
    specialize (H (N.to_nat n)). rewrite N2Nat.id in H.
    assert (Hin : In (N.to_nat n) (seq 1 256)) by (apply in_seq; lia).
    specialize (H Hin). destruct (find_round_down_slab n) as [[i x]|]; [|discriminate].
    apply andb_true_iff in H. destruct H as [H1 H2].
    apply Nat.eqb_eq in H1. apply N.eqb_eq in H2. now subst.
Qed.

(** ** Counting holders *)
Lemma exts_app : forall l1 l2, exts (l1 ++ l2) = exts l1 ++ exts l2.
Proof. intros. unfold exts. apply map_app. Qed.

(** ** try_free_blks *)
Lemma free_loop_spec : forall fuel c e ex, wf c -> e_cnt e < 2 ^ N.of_nat fuel -> e_cnt e < 65535 ->
  e_cnt e < 2 ^ N.of_nat (length c) ->
  exists c' pieces rej, free_loop fuel c e ex = Some (c', ex ++ rej) /\ wf c' /\ length c' = length c /\
    tiles (e_num e) (e_cnt e) (exts pieces) /\
    Forall (fun p => exists i, (i < length c)%nat /\ e_cnt p = 2 ^ N.of_nat i) pieces /\
    Permutation (entries c' ++ rej) (entries c ++ pieces).
Proof.
  induction fuel as [|fuel IH]; intros c e ex Hwf Hfuel H16 Hlen; cbn [free_loop];
    destruct (N.eqb_spec (e_cnt e) 0) as [H0|H0].
  1,3: exists c, [], []; rewrite !app_nil_r, H0; ands; auto; try constructor.
  - simpl in Hfuel. lia.
  - rewrite round_down_spec by lia.
    set (k := N.log2 (e_cnt e)).
    pose proof (N.log2_spec (e_cnt e)) as Hlog. fold k in Hlog. rewrite N.pow_succ_r' in Hlog.
    destruct Hlog as [Hlo Hhi]; [lia|].
    assert (Hk : (N.to_nat k < length c)%nat).
    { assert (k < N.of_nat (length c)); [|lia]. apply (N.pow_lt_mono_r_iff 2); lia. }
    destruct (nth_error c (N.to_nat k)) as [s|] eqn:Hn; [|apply nth_error_None in Hn; lia].
    destruct (Hwf _ _ Hn) as [Hsz _]. rewrite N2Nat.id in Hsz.
    destruct (push_slab_spec c (N.to_nat k) s (Entry (e_num e) (sl_size s) (e_temp e)) false Hwf Hn)
      as [c1 [p [Hp [Hwf1 [Hlen1 Hperm]]]]].
    { cbn [e_cnt]. rewrite Hsz. now rewrite N2Nat.id. }
    rewrite Hp. cbv zeta.
    set (pc := Entry (e_num e) (sl_size s) (e_temp e)) in *.
    assert (Hpc : exists i, (i < length c)%nat /\ e_cnt pc = 2 ^ N.of_nat i).
    { exists (N.to_nat k). split; [exact Hk|]. unfold pc. cbn [e_cnt]. rewrite Hsz. now rewrite N2Nat.id. }
    destruct (N.eqb_spec (e_cnt e - 2 ^ k) 0) as [Hx|Hx].
    + exists c1, [pc], (if p then [] else [pc]). split; [|split; [|split; [|split; [|split]]]]; auto.
      * destruct p; [now rewrite app_nil_r|reflexivity].
      * cbn. repeat split; lia.
      * destruct p; [rewrite Hperm, app_nil_r, <- Permutation_cons_append; reflexivity|]. now subst c1.
    + destruct (IH c1 (Entry (e_num e + sl_size s) (e_cnt e - 2 ^ k) (e_temp e)) (if p then ex else ex ++ [pc]))
        as [c' [ps [rej [Hf [Hw [Hl [Ht [Ha Hpm]]]]]]]]; cbn [e_cnt e_num] in *; auto; try lia.
      { rewrite Nat2N.inj_succ, N.pow_succ_r' in Hfuel.
        assert (2 ^ k <= 2 ^ N.of_nat fuel); [|lia].
        destruct (N.le_gt_cases k (N.of_nat fuel)) as [Hle|Hgt]; [apply N.pow_le_mono_r; lia|].
        assert (2 ^ N.of_nat fuel * 2 <= 2 ^ k); [|lia].
        rewrite N.mul_comm, <- N.pow_succ_r'. apply N.pow_le_mono_r; lia. }
      { rewrite Hlen1. lia. }
      exists c', (pc :: ps), (if p then rej else pc :: rej). rewrite Hf.
      split; [|split; [|split; [|split; [|split]]]].
      * destruct p; [reflexivity|]. now rewrite <- app_assoc.
      * exact Hw.
      * congruence.
      * cbn. split; [reflexivity|]. split; [lia|]. split; [lia|]. rewrite Hsz in *. exact Ht.
      * constructor; [exact Hpc|]. now rewrite Hlen1 in Ha.
      * destruct p.
        -- rewrite Hpm, Hperm. simpl. apply Permutation_middle.
        -- subst c1. rewrite <- !Permutation_middle. now constructor.
Qed.

Lemma try_free_spec : forall c e ex, wf c -> e_cnt e < 65535 -> e_cnt e < 2 ^ N.of_nat (length c) ->
  exists c' pieces rej, try_free_blks c e ex = Some (c', ex ++ rej) /\ wf c' /\ length c' = length c /\
    tiles (e_num e) (e_cnt e) (exts pieces) /\
    Forall (fun p => exists i, (i < length c)%nat /\ e_cnt p = 2 ^ N.of_nat i) pieces /\
    Permutation (entries c' ++ rej) (entries c ++ pieces).
Proof.
  intros c e ex Hwf H16 Hlen. apply free_loop_spec; auto.
  change (2 ^ N.of_nat 17) with 131072. lia.
Qed.

(** Conservation form. *)
Lemma try_free_holders : forall c e ex, wf c -> e_cnt e < 65535 -> e_cnt e < 2 ^ N.of_nat (length c) ->
  exists c' ex', try_free_blks c e ex = Some (c', ex') /\ wf c' /\ length c' = length c /\
    (forall b, holders b (cached c') + holders b (exts ex') =
               holders b (cached c) + holders b (exts ex) + holders b [ext_of e])%nat.
Proof.
  intros c e ex Hwf H16 Hlen.
  destruct (try_free_spec c e ex Hwf H16 Hlen) as [c' [ps [rej [H [Hw [Hl [Ht [_ Hp]]]]]]]].
  exists c', (ex ++ rej). repeat (split; [assumption|]). intros b.
  rewrite exts_app, holders_app.
  assert (Hh : holders b (exts (entries c' ++ rej)) = holders b (exts (entries c ++ ps)))
    by (apply holders_perm; now apply Permutation_map).
  rewrite !exts_app, !holders_app in Hh. unfold cached.
  rewrite (holders_tiles b _ _ _ Ht) in Hh.
  rewrite holders_cons. change (holders b []) with 0%nat. unfold ext_of.
  destruct (inside b (e_num e, e_cnt e)); lia.
Qed.

(** ** Allocation *)
Lemma last_entry_app : forall l e, last_entry (l ++ [e]) = Some e.
Proof.
  induction l as [|x l IH]; intros e; [reflexivity|]. simpl. rewrite IH.
  destruct l; reflexivity.
Qed.
Lemma set_last_app : forall l e k, set_last_cnt (l ++ [e]) k = l ++ [Entry (e_num e) k (e_temp e)].
Proof.
  induction l as [|x l IH]; intros e k; [reflexivity|]. simpl. rewrite IH.
  destruct l; reflexivity.
Qed.

Definition held (c : cache) (rs : alloc_resp) (b : N) : nat :=
  (holders b (cached c) + holders b (exts (rs_out rs)) + holders b (exts (rs_excess rs)))%nat.

(** Result of the pop loop; [n] pops are left, [got] blocks were popped. *)
Definition pos (e : entry) : Prop := 0 < e_cnt e.
Lemma alloc_loop_spec : forall n first c idx s req al out ex got,
  wf c -> nth_error c idx = Some s -> al + got < 65536 ->
  r_nblks req + 2 ^ N.of_nat idx <= 65536 -> al < r_nblks req ->
  blocks (exts out) = al + got ->
  r_nblks req - al <= got + N.of_nat n * 2 ^ N.of_nat idx ->
  got + N.of_nat n * 2 ^ N.of_nat idx < (r_nblks req - al) + 2 ^ N.of_nat idx ->
  (first = true -> got = 0) -> (first = false -> 0 < got) ->
  (0 < got -> exists init l, out = init ++ [l] /\ e_cnt l = 2 ^ N.of_nat idx) ->
  Forall pos out ->
  exists c' rs' st, alloc_loop n first c idx (2 ^ N.of_nat idx) req (Resp al out ex) got = Some (c', rs', st) /\
    wf c' /\ length c' = length c /\
    (forall b, held c' rs' b = held c (Resp al out ex) b) /\
    blocks (exts (rs_out rs')) = rs_alloced rs' /\
    (st = SUCCESS -> rs_alloced rs' = r_nblks req) /\
    (st <> SUCCESS -> rs_alloced rs' < r_nblks req /\ al + got <= rs_alloced rs' /\
       (forall s', nth_error c' idx = Some s' -> slab_entries s' = []) /\
       (forall j, j <> idx -> nth_error c' j = nth_error c j)) /\
    (st = FAILED -> first = true /\ c' = c /\ rs' = Resp al out ex) /\
    (st = PARTIAL -> first = false \/ (1 < n)%nat) /\
    (length (rs_out rs') <= length out + n)%nat /\ Forall pos (rs_out rs').
Proof.
  induction n as [|n IH]; intros first c idx s req al out ex got Hwf Hn H16 Hsz Hal Hsum Hlow Hhigh Hf1 Hf2 Hlast Hpos;
    cbn [alloc_loop].
  - (* no pops left *)
    unfold free_excess. cbn [rs_alloced rs_out rs_excess].
    unfold w16. rewrite N.mod_small by lia. cbv zeta.
    assert (Hidx : (idx < length c)%nat) by (apply nth_error_Some; congruence).
    assert (Hpow : 2 ^ N.of_nat idx < 2 ^ N.of_nat (length c)) by (apply N.pow_lt_mono_r; lia).
    destruct (N.ltb_spec (r_nblks req) (al + got)) as [Hgt|Hle].
    + destruct Hlast as [init [l [-> Hl]]]; [lia|].
      rewrite last_entry_app.
      set (res := al + got - r_nblks req). set (need := 2 ^ N.of_nat idx - res).
      assert (Hres : res < 2 ^ N.of_nat idx) by lia.
      destruct (try_free_holders c (Entry (e_num l + need) res (e_temp l)) ex Hwf) as [c' [ex' [Hf [Hw [Hle2 Hh]]]]];
        cbn [e_cnt]; try lia.
      rewrite Hf. rewrite set_last_app.
      eexists _, _, _. split; [reflexivity|]. cbn [rs_alloced rs_out rs_excess].
      split; [exact Hw|]. split; [exact Hle2|]. split.
      * intros b. unfold held. cbn [rs_alloced rs_out rs_excess]. specialize (Hh b).
        rewrite !exts_app, !holders_app in *. cbn [exts map] in *.
        rewrite !holders_cons, ?holders_nil in *. unfold ext_of in *. cbn [e_num e_cnt] in *.
        pose proof (inside_split b (e_num l) need (e_cnt l)) as Hsp.
        assert (Hnl : need <= e_cnt l) by lia. specialize (Hsp Hnl).
        replace (e_cnt l - need) with res in Hsp by lia. lia.
      * split; [|ands].
        -- rewrite exts_app, blocks_app in Hsum |- *.
           cbn [exts map blocks fold_right ext_of snd e_cnt] in Hsum |- *. unfold ext_of in Hsum.
           cbn [snd] in Hsum. lia.
        -- intros _. lia.
        -- congruence.
        -- congruence.
        -- congruence.
        -- rewrite !app_length. cbn. lia.
        -- apply Forall_app in Hpos as [Hp1 _]. apply Forall_app. split; [exact Hp1|]. repeat constructor. unfold pos. cbn. lia.
    + eexists _, _, _. split; [reflexivity|]. cbn [rs_alloced rs_out rs_excess]. ands; auto; try congruence; try lia.
  - rewrite Nat2N.inj_succ in *.
    destruct (pop_slab_spec c idx s (r_level req) Hwf Hn) as [c1 [r [Hp [Hw1 [Hl1 Hr]]]]].
    rewrite Hp. destruct r as [e|].
    + destruct Hr as [He [Hperm Hoth]].
      cbn [rs_alloced rs_out rs_excess].
      assert (Hposs : 0 < 2 ^ N.of_nat idx) by (apply N.neq_0_lt_0, N.pow_nonzero; lia).
      assert (Hw16 : w16 (got + 2 ^ N.of_nat idx) = got + 2 ^ N.of_nat idx) by (unfold w16; apply N.mod_small; nia).
      rewrite Hw16.
      assert (Hs1 : exists s1, nth_error c1 idx = Some s1).
      { destruct (nth_error c1 idx) as [s1|] eqn:E; [eauto|]. apply nth_error_None in E.
        assert ((idx < length c)%nat) by (apply nth_error_Some; congruence). lia. }
      destruct Hs1 as [s1 Hs1].
      destruct (IH false c1 idx s1 req al (out ++ [e]) ex (got + 2 ^ N.of_nat idx)) as [c' [rs' [st H]]];
        auto; try lia; try nia.
      { rewrite exts_app, blocks_app. cbn. lia. }
      { intros _. exists out, e. auto. }
      { apply Forall_app. split; [exact Hpos|]. repeat constructor. unfold pos. lia. }
      destruct H as [H [Hw [Hlen [Hheld [Hb [Hsucc [Hnsucc [Hfail [Hpart [Hlo Hps]]]]]]]]]].
      exists c', rs', st. split; [exact H|]. split; [exact Hw|]. split; [lia|]. split.
      { intros b. rewrite Hheld. unfold held. cbn [rs_out rs_excess].
        rewrite exts_app, holders_app.
        assert (Hh : holders b (cached c) = holders b (exts (e :: entries c1)))
          by (apply holders_perm; now apply Permutation_map).
        rewrite Hh. cbn [exts map]. rewrite !holders_cons, holders_nil.
        unfold cached, exts. lia. }
      split; [exact Hb|]. split; [exact Hsucc|]. split; [|split; [|split; [|split; [|exact Hps]]]].
      * intros Hne. destruct (Hnsucc Hne) as [A [B [C D]]]. ands; auto; [lia|].
        intros j Hj. rewrite D by assumption. now apply Hoth.
      * intros Hfl. destruct (Hfail Hfl). discriminate.
      * intros Hpt. destruct first; [|now left]. right.
        destruct n; [|lia]. exfalso. destruct (Hnsucc) as [A [B _]]; [congruence|]. nia.
      * rewrite app_length in Hlo. cbn in Hlo. lia.
    + destruct Hr as [-> Hempty].
      unfold free_excess. cbn [rs_alloced rs_out rs_excess].
      unfold w16. rewrite N.mod_small by lia. cbv zeta.
      assert (Hgl : got < r_nblks req - al) by nia.
      destruct (N.ltb_spec (r_nblks req) (al + got)) as [Hgt|Hle]; [lia|].
      eexists _, _, _. split; [reflexivity|]. cbn [rs_alloced rs_out rs_excess].
      split; [exact Hwf|]. split; [reflexivity|]. split; [reflexivity|]. split; [exact Hsum|].
      split; [|split; [|split; [|split; [|split; [|exact Hpos]]]]].
      * destruct (first && (got =? 0)); discriminate.
      * intros _. split; [lia|]. split; [lia|]. split; [|reflexivity].
        intros s' Hs'. congruence.
      * destruct first; [|discriminate]. rewrite (Hf1 eq_refl). cbn. rewrite N.add_0_r. auto.
      * destruct first; [|now left]. rewrite (Hf1 eq_refl). discriminate.
      * lia.
Qed.

Definition rs_ok (req : alloc_req) (rs : alloc_resp) : Prop :=
  (blocks (exts (rs_out rs)) = rs_alloced rs /\ Forall pos (rs_out rs)) /\ rs_alloced rs <= r_nblks req.

(** What one slab attempt guarantees. *)
Definition attempt_ok (req : alloc_req) (idx : nat) (c : cache) (rs : alloc_resp)
  (c' : cache) (rs' : alloc_resp) (st : status) : Prop :=
  wf c' /\ length c' = length c /\ (forall b, held c' rs' b = held c rs b) /\ rs_ok req rs' /\
  rs_alloced rs <= rs_alloced rs' /\
  (st = SUCCESS -> rs_alloced rs' = r_nblks req) /\
  (st <> SUCCESS -> rs_alloced rs' < r_nblks req /\
     (r_contig req = false -> forall s', nth_error c' idx = Some s' -> slab_entries s' = []) /\
     (forall j, j <> idx -> nth_error c' j = nth_error c j)) /\
  (st = FAILED -> c' = c /\ rs' = rs) /\
  (r_contig req = true -> rs_alloced rs = 0 -> rs_out rs = [] -> st <> PARTIAL /\ (length (rs_out rs') <= 1)%nat).

Lemma slab_attempt : forall c idx req rs, wf c -> (idx < length c)%nat -> rs_ok req rs ->
  r_nblks req + 2 ^ N.of_nat idx <= 65536 ->
  exists c' rs' st, try_alloc_in_slab c idx req rs = Some (c', rs', st) /\ attempt_ok req idx c rs c' rs' st.
Proof.
  intros c idx req rs Hwf Hidx [[Hsum Hpo] Hle] Hsz. unfold try_alloc_in_slab.
  destruct (N.leb_spec (r_nblks req) (rs_alloced rs)) as [Hdone|Hmore].
  { exists c, rs, SUCCESS. split; [reflexivity|]. unfold attempt_ok, rs_ok. ands; auto; try lia; try congruence.
    intros _ _ ->. split; [discriminate|simpl; lia]. }
  destruct (nth_error c idx) as [s|] eqn:Hn; [|apply nth_error_None in Hn; lia].
  destruct (Hwf _ _ Hn) as [Hss _]. unfold entries_needed. rewrite Hss.
  assert (Hpos : 0 < 2 ^ N.of_nat idx) by (apply N.neq_0_lt_0, N.pow_nonzero; lia).
  set (S := 2 ^ N.of_nat idx) in *. set (need := r_nblks req - rs_alloced rs).
  assert (Hdiv : S * ((need - 1) / S) <= need - 1) by (apply N.mul_div_le; lia).
  assert (Hdiv2 : need - 1 < S * N.succ ((need - 1) / S)) by (apply N.mul_succ_div_gt; lia).
  set (q := (need - 1) / S) in *. clearbody q.
  cbv zeta. destruct (r_contig req && (1 <? q + 1)) eqn:Hc.
  { exists c, rs, FAILED. split; [reflexivity|]. unfold attempt_ok, rs_ok. ands; auto; try lia; try congruence.
    - intros _. split; [lia|]. split; [|auto]. intros Hf. rewrite Hf in Hc. discriminate.
    - intros _ _ ->. split; [discriminate|simpl; lia]. }
  destruct rs as [al out ex]. cbn [rs_alloced rs_out rs_excess] in *.
  destruct (alloc_loop_spec (N.to_nat (q + 1)) true c idx s req al out ex 0 Hwf Hn) as [c' [rs' [st H]]];
    try (subst S need; lia); try nia; try congruence.
  destruct H as [H [Hw [Hlen [Hheld [Hb [Hsucc [Hnsucc [Hfail [Hpart [Hlo Hps]]]]]]]]]].
  fold S in H. exists c', rs', st. split; [exact H|]. unfold attempt_ok. cbn [rs_alloced rs_out].
  split; [exact Hw|]. split; [exact Hlen|]. split; [exact Hheld|]. split.
  { split; [split; [exact Hb|exact Hps]|]. destruct st; [rewrite Hsucc by reflexivity; lia| |];
      destruct Hnsucc as [A _]; try congruence; lia. }
  split. { destruct st; [rewrite Hsucc by reflexivity; lia| |]; destruct Hnsucc as [A [B _]]; try congruence; lia. }
  split; [exact Hsucc|]. split.
  { intros Hne. destruct (Hnsucc Hne) as [A [B [C D]]]. auto. }
  split. { intros Hf. destruct (Hfail Hf) as [_ [A B]]. auto. }
  intros Hct Hz ->. rewrite Hct in Hc. cbn [andb] in Hc.
  assert (Hq : q = 0) by lia. rewrite Hq in *. cbn in Hlo. split; [|exact Hlo].
  intros Hp. destruct (Hpart Hp) as [Hd|Hd]; [discriminate|]. cbn in Hd. lia.
Qed.

(** Empty at index [j]. *)
Definition empty_at (c : cache) (j : nat) : Prop := forall s, nth_error c j = Some s -> slab_entries s = [].

Definition search_ok (req : alloc_req) (c : cache) (rs : alloc_resp) (c' : cache) (rs' : alloc_resp) (st : status)
  (visited : nat -> Prop) : Prop :=
  wf c' /\ length c' = length c /\ (forall b, held c' rs' b = held c rs b) /\ rs_ok req rs' /\
  rs_alloced rs <= rs_alloced rs' /\
  (st = SUCCESS -> rs_alloced rs' = r_nblks req) /\
  (st <> SUCCESS -> rs_alloced rs' < r_nblks req /\ st = end_status rs' /\
     (r_contig req = false -> forall j, visited j -> empty_at c' j) /\
     (forall j, ~ visited j -> nth_error c' j = nth_error c j)) /\
  (r_contig req = true -> rs_alloced rs = 0 -> rs_out rs = [] ->
     (st <> SUCCESS -> rs_alloced rs' = 0 /\ rs_out rs' = []) /\ (length (rs_out rs') <= 1)%nat).

Lemma undo_noop : forall req st c rs, (r_contig req = true -> st <> PARTIAL) -> undo_partial req st c rs = Some (c, rs).
Proof.
  intros req st c rs H. unfold undo_partial. destruct st; auto. destruct (r_contig req); auto.
  exfalso. now apply H.
Qed.

(** Requests the varsize allocator makes: contiguous ones start empty. *)
Definition fresh (req : alloc_req) (rs : alloc_resp) : Prop :=
  r_contig req = true -> rs_alloced rs = 0 /\ rs_out rs = [].

Lemma break_up_spec : forall fuel c idx req rs, wf c -> (length c <= fuel + idx + 1)%nat -> rs_ok req rs ->
  fresh req rs -> rs_alloced rs < r_nblks req ->
  r_nblks req + 2 ^ N.of_nat (length c - 1) <= 65536 ->
  exists c' rs' st, break_up fuel c idx req rs = Some (c', rs', st) /\
    search_ok req c rs c' rs' st (fun j => (idx < j < length c)%nat).
Proof.
  induction fuel as [|fuel IH]; intros c idx req rs Hwf Hfuel Hok Hfresh Hlt Hsz; cbn [break_up];
    destruct (Nat.leb_spec (length c - 1) idx) as [Hend|Hgo].
  1,3: exists c, rs, (end_status rs); split; [reflexivity|]; unfold search_ok; ands; auto; try lia;
    [unfold end_status; destruct (0 <? rs_alloced rs); discriminate
    |intros _; ands; auto; intros _ j Hj; lia
    |intros Hc H0 H1; rewrite H0, H1; split; [auto|simpl; lia]].
  { exfalso. lia. }
  destruct (slab_attempt c (S idx) req rs) as [c1 [rs1 [st1 [H1 Ha]]]]; auto; [lia| |].
  { assert (2 ^ N.of_nat (S idx) <= 2 ^ N.of_nat (length c - 1)) by (apply N.pow_le_mono_r; lia). lia. }
  rewrite H1. destruct Ha as [Hw1 [Hl1 [Hh1 [Hok1 [Hge1 [Hs1 [Hn1 [Hf1 Hc1]]]]]]]].
  destruct (match st1 with SUCCESS => true | _ => false end) eqn:Est.
  { assert (st1 = SUCCESS) by (destruct st1; congruence). subst st1.
    exists c1, rs1, SUCCESS. split; [reflexivity|]. unfold search_ok. ands; auto; try congruence.
    intros Hct H0 Ho. split; [congruence|]. now apply Hc1. }
  assert (Hne : st1 <> SUCCESS) by (destruct st1; congruence).
  destruct (Hn1 Hne) as [Hlt1 [Hemp1 Hoth1]].
  assert (Hfresh1 : fresh req rs1).
  { intros Hct. destruct (Hfresh Hct) as [H0 Ho]. destruct (Hc1 Hct H0 Ho) as [Hnp _].
    destruct st1; try congruence. destruct (Hf1 eq_refl) as [_ ->]. auto. }
  assert (Hundo : undo_partial req st1 c1 rs1 = Some (c1, rs1)).
  { apply undo_noop. intros Hct. destruct (Hfresh Hct) as [H0 Ho]. now destruct (Hc1 Hct H0 Ho). }
  destruct (IH c1 (S idx) req rs1) as [c' [rs' [st [H Hr]]]]; auto; try lia.
  { now rewrite Hl1. }
  exists c', rs', st. split.
  { destruct st1; try congruence; now rewrite Hundo. }
  destruct Hr as [Hw [Hl [Hh [Hok' [Hge [Hs [Hn Hc]]]]]]].
  unfold search_ok. ands; auto; try lia; try congruence.
  - intros Hx. destruct (Hn Hx) as [A [B [C D]]]. ands; auto.
    + intros Hct j Hj. destruct (Nat.eq_dec j (S idx)) as [->|Hj2].
      * intros s Hs'. rewrite D in Hs' by lia. now apply (Hemp1 Hct).
      * apply C; [assumption|]. lia.
    + intros j Hj. rewrite D by lia. apply Hoth1. lia.
  - intros Hct H0 Ho. destruct (Hfresh1 Hct) as [A B]. now apply Hc.
Qed.

Lemma merge_down_spec : forall idx c req rs, wf c -> (idx < length c)%nat -> rs_ok req rs ->
  r_contig req = false -> (r_min req <= idx)%nat -> rs_alloced rs < r_nblks req ->
  r_nblks req + 2 ^ N.of_nat (length c - 1) <= 65536 ->
  exists c' rs' st, merge_down c idx req rs = Some (c', rs', st) /\
    search_ok req c rs c' rs' st (fun j => (r_min req <= j < idx)%nat).
Proof.
  induction idx as [|idx IH]; intros c req rs Hwf Hidx Hok Hnc Hmin Hlt Hsz; cbn [merge_down];
    match goal with |- context [Nat.eqb ?a (r_min req)] => destruct (Nat.eqb_spec a (r_min req)) as [Heq|Hne] end.
  1,3: exists c, rs, (end_status rs); split; [reflexivity|]; unfold search_ok; ands; auto; try lia;
    [unfold end_status; destruct (0 <? rs_alloced rs); discriminate
    |intros _; ands; auto; intros _ j Hj; lia
    |intros Hct; congruence].
  { exfalso. lia. }
  destruct (slab_attempt c idx req rs) as [c1 [rs1 [st1 [H1 Ha]]]]; auto; [lia| |].
  { assert (2 ^ N.of_nat idx <= 2 ^ N.of_nat (length c - 1)) by (apply N.pow_le_mono_r; lia). lia. }
  rewrite H1. destruct Ha as [Hw1 [Hl1 [Hh1 [Hok1 [Hge1 [Hs1 [Hn1 [Hf1 Hc1]]]]]]]].
  destruct (match st1 with SUCCESS => true | _ => false end) eqn:Est.
  { assert (st1 = SUCCESS) by (destruct st1; congruence). subst st1.
    exists c1, rs1, SUCCESS. split; [reflexivity|]. unfold search_ok. ands; auto; try congruence. }
  assert (Hne1 : st1 <> SUCCESS) by (destruct st1; congruence).
  destruct (Hn1 Hne1) as [Hlt1 [Hemp1 Hoth1]].
  destruct (IH c1 req rs1) as [c' [rs' [st [H Hr]]]]; auto; try lia.
  { now rewrite Hl1. }
  exists c', rs', st. split.
  { destruct st1; try congruence; exact H. }
  destruct Hr as [Hw [Hl [Hh [Hok' [Hge [Hs [Hn Hc]]]]]]].
  unfold search_ok. ands; auto; try lia; try congruence.
  - intros Hx. destruct (Hn Hx) as [A [B [C D]]]. ands; auto.
    + intros Hct j Hj. destruct (Nat.eq_dec j idx) as [->|Hj2].
      * intros s Hs'. rewrite D in Hs' by lia. now apply (Hemp1 Hct).
      * apply C; [assumption|]. lia.
    + intros j Hj. rewrite D by lia. apply Hoth1. lia.
Qed.

(** The whole request. *)
Lemma try_alloc_spec : forall c req, wf c -> (r_max req < length c)%nat ->
  (r_contig req = true \/ (r_min req <= Nat.min (find_slab (r_nblks req)) (r_max req))%nat) ->
  r_nblks req + 2 ^ N.of_nat (length c - 1) <= 65536 ->
  exists c' rs' st, try_alloc_blks c req resp0 = Some (c', rs', st) /\
    wf c' /\ length c' = length c /\ (forall b, held c' rs' b = holders b (cached c)) /\ rs_ok req rs' /\
    (st = SUCCESS -> rs_alloced rs' = r_nblks req) /\
    (st <> SUCCESS -> rs_alloced rs' < r_nblks req /\ st = end_status rs') /\
    (r_contig req = true -> (length (rs_out rs') <= 1)%nat /\ (st <> SUCCESS -> rs_out rs' = [])) /\
    (st <> SUCCESS -> r_contig req = false -> r_min req = O -> entries c' = []).
Proof.
  intros c req Hwf Hmax Hmin Hsz. unfold try_alloc_blks.
  set (idx := Nat.min (find_slab (r_nblks req)) (r_max req)) in *.
  assert (Hidx : (idx < length c)%nat) by (subst idx; lia).
  assert (Hok0 : rs_ok req resp0) by (split; [split; [reflexivity|constructor]|simpl; lia]).
  assert (Hh0 : forall b, held c resp0 b = holders b (cached c)).
  { intros b. unfold held. cbn [resp0 rs_out rs_excess exts map]. rewrite holders_nil. lia. }
  destruct (slab_attempt c idx req resp0) as [c1 [rs1 [st1 [H1 Ha]]]]; auto.
  { assert (2 ^ N.of_nat idx <= 2 ^ N.of_nat (length c - 1)) by (apply N.pow_le_mono_r; lia). lia. }
  rewrite H1. destruct Ha as [Hw1 [Hl1 [Hh1 [Hok1 [Hge1 [Hs1 [Hn1 [Hf1 Hc1]]]]]]]].
  cbn [resp0 rs_alloced rs_out] in Hc1.
  destruct (match st1 with SUCCESS => true | _ => false end) eqn:Est.
  { assert (st1 = SUCCESS) by (destruct st1; congruence). subst st1.
    exists c1, rs1, SUCCESS. split; [reflexivity|]. ands; auto; try congruence.
    - intros Hct. split; [now apply Hc1|congruence]. }
  assert (Hne1 : st1 <> SUCCESS) by (destruct st1; congruence).
  destruct (Hn1 Hne1) as [Hlt1 [Hemp1 Hoth1]].
  assert (Hfresh1 : fresh req rs1).
  { intros Hct. destruct (Hc1 Hct eq_refl eq_refl) as [Hnp _].
    destruct st1; try congruence. destruct (Hf1 eq_refl) as [_ ->]. auto. }
  assert (Hundo : undo_partial req st1 c1 rs1 = Some (c1, rs1)).
  { apply undo_noop. intros Hct. now destruct (Hc1 Hct eq_refl eq_refl). }
  destruct (break_up_spec (length c) c1 idx req rs1) as [c2 [rs2 [st2 [H2 Hr]]]]; auto; try lia.
  { now rewrite Hl1. }
  destruct Hr as [Hw2 [Hl2 [Hh2 [Hok2 [Hge2 [Hs2 [Hn2 Hc2]]]]]]].
  destruct (match st2 with SUCCESS => true | _ => false end) eqn:Est2.
  { assert (st2 = SUCCESS) by (destruct st2; congruence). subst st2.
    exists c2, rs2, SUCCESS. split.
    { destruct st1; try congruence; rewrite Hundo, H2; reflexivity. }
    ands; auto; try congruence.
    - intros Hct. split; [|congruence]. destruct (Hfresh1 Hct). now apply Hc2. }
  assert (Hne2 : st2 <> SUCCESS) by (destruct st2; congruence).
  destruct (Hn2 Hne2) as [Hlt2 [Hend2 [Hemp2 Hoth2]]].
  destruct (r_contig req) eqn:Hct.
  { exists c2, rs2, st2. split.
    { destruct st1; try congruence; rewrite Hundo, H2; destruct st2; congruence. }
    ands; auto; try congruence.
    - intros _. destruct (Hfresh1 Hct) as [A B]. destruct (Hc2 eq_refl A B) as [C D].
      split; [exact D|]. intros Hx. now destruct (C Hx). }
  destruct Hmin as [Hmin|Hmin]; [discriminate|].
  destruct (merge_down_spec idx c2 req rs2) as [c3 [rs3 [st3 [H3 Hr3]]]]; auto; try lia.
  { rewrite Hl2, Hl1. exact Hsz. }
  destruct Hr3 as [Hw3 [Hl3 [Hh3 [Hok3 [Hge3 [Hs3 [Hn3 Hc3]]]]]]].
  exists c3, rs3, st3. split.
  { destruct st1; try congruence; rewrite Hundo, H2; destruct st2; try congruence; exact H3. }
  ands; auto; try congruence; try lia.
  - intros Hx. destruct (Hn3 Hx) as [A [B _]]. auto.
  - intros Hx _ Hm0. destruct (Hn3 Hx) as [_ [_ [C D]]].
    unfold entries. apply flat_map_nil_all. intros j s Hj.
    assert (Hjl : (j < length c)%nat) by (rewrite <- Hl1, <- Hl2, <- Hl3; apply nth_error_Some; congruence).
    destruct (Nat.lt_total j idx) as [Hlt|[->|Hgt]].
    + eapply (C Hct j); [lia|exact Hj].
    + rewrite D in Hj by lia. rewrite Hoth2 in Hj by lia. now apply (Hemp1 eq_refl).
    + rewrite D in Hj by lia. apply (Hemp2 eq_refl j); [rewrite Hl1; lia|exact Hj].
Qed.

Lemma holders_exts_perm : forall b l l', Permutation l l' -> holders b (exts l) = holders b (exts l').
Proof. intros b l l' H. apply holders_perm. now apply Permutation_map. Qed.

(** ** Client histories *)
Lemma remove_nth_perm : forall A n (l : list A) x, nth_error l n = Some x -> Permutation l (x :: remove_nth n l).
Proof.
  induction n as [|n IH]; intros [|h t] x H; simpl in *; try discriminate.
  - injection H as ->. reflexivity.
  - rewrite (IH _ _ H) at 1. constructor.
Qed.

Lemma in_blocks_le : forall l e, In e l -> e_cnt e <= blocks (exts l).
Proof.
  induction l as [|x l IH]; intros e H; [contradiction|].
  change (exts (x :: l)) with (ext_of x :: exts l). cbn [blocks fold_right].
  fold (blocks (exts l)). unfold ext_of at 1. cbn [snd].
  destruct H as [->|H]; [lia|]. specialize (IH _ H). lia.
Qed.

Definition client_inv (n : nat) (c0 : cache) (s : client) : Prop :=
  wf (cl_cache s) /\ length (cl_cache s) = n /\
  Forall (fun e => e_cnt e <= 2 ^ N.of_nat (n - 1)) (cl_live s) /\
  (forall b, total_holders s b = holders b (cached c0)).

Lemma pow16 : forall n, (0 < n)%nat -> (n <= 16)%nat -> 2 ^ N.of_nat (n - 1) <= 32768 /\ 2 ^ N.of_nat n = 2 * 2 ^ N.of_nat (n - 1).
Proof.
  intros n Hn H. split.
  - change 32768 with (2 ^ 15). apply N.pow_le_mono_r; lia.
  - replace (N.of_nat n) with (N.succ (N.of_nat (n - 1))) by lia. apply N.pow_succ_r'.
Qed.

Lemma client_step_inv : forall n c0 s o, (0 < n)%nat -> (n <= 16)%nat -> client_inv n c0 s -> legal_op n o ->
  exists s' r, client_step s o = Some (s', r) /\ client_inv n c0 s'.
Proof.
  intros n c0 s o Hn0 Hn [Hwf [Hlen [Hlive Hh]]] Hlegal.
  destruct (pow16 n Hn0 Hn) as [Hp1 Hp2].
  destruct o as [req|i|i k]; cbn [client_step].
  - destruct Hlegal as [Hl1 [Hl2 Hl3]].
    destruct (try_alloc_spec (cl_cache s) req Hwf) as [c' [rs [st [H [Hw [Hl [Hheld [[[Hok1 _] Hok2] _]]]]]]]];
      rewrite ?Hlen; auto; [lia|].
    rewrite H. eexists _, _. split; [reflexivity|]. unfold client_inv. cbn [cl_cache cl_live cl_excess]. ands; auto.
    + congruence.
    + apply Forall_app. split; [exact Hlive|]. apply Forall_forall. intros e He.
      apply in_blocks_le in He. lia.
    + intros b. specialize (Hh b). specialize (Hheld b). unfold total_holders, held in *.
      cbn [cl_cache cl_live cl_excess]. rewrite !exts_app, !holders_app. lia.
  - destruct (nth_error (cl_live s) i) as [e|] eqn:Hi.
    2: { eexists _, _. split; [reflexivity|]. unfold client_inv; auto. }
    pose proof (remove_nth_perm _ _ _ _ Hi) as Hperm.
    assert (Hall := Forall_perm _ _ _ _ Hperm Hlive). inversion Hall as [|x y Hx Hy]; subst x y.
    destruct (try_free_holders (cl_cache s) e (cl_excess s) Hwf) as [c' [ex' [Hf [Hw [Hl Hhh]]]]];
      [lia|rewrite Hlen; lia|].
    rewrite Hf. eexists _, _. split; [reflexivity|]. unfold client_inv. cbn [cl_cache cl_live cl_excess]. ands; auto.
    + congruence.
    + intros b. specialize (Hh b). specialize (Hhh b). unfold total_holders in *. cbn [cl_cache cl_live cl_excess].
      rewrite (holders_exts_perm b _ _ Hperm) in Hh. cbn [exts map] in Hh.
      rewrite holders_cons in Hh, Hhh. rewrite holders_nil in Hhh. unfold exts in *. lia.
  - destruct (nth_error (cl_live s) i) as [e|] eqn:Hi.
    2: { eexists _, _. split; [reflexivity|]. unfold client_inv; auto. }
    destruct ((0 <? k) && (k <? e_cnt e)) eqn:Hk.
    2: { eexists _, _. split; [reflexivity|]. unfold client_inv; auto. }
    pose proof (remove_nth_perm _ _ _ _ Hi) as Hperm.
    assert (Hall := Forall_perm _ _ _ _ Hperm Hlive). inversion Hall as [|x y Hx Hy]; subst x y.
    eexists _, _. split; [reflexivity|]. unfold client_inv. cbn [cl_cache cl_live cl_excess]. ands; auto.
    + constructor; [cbn; lia|]. constructor; [cbn; lia|]. exact Hy.
    + intros b. specialize (Hh b). unfold total_holders in *. cbn [cl_cache cl_live cl_excess].
      rewrite (holders_exts_perm b _ _ Hperm) in Hh. cbn [exts map] in Hh |- *.
      rewrite !holders_cons in *. unfold ext_of in *. cbn [e_num e_cnt] in *.
      fold ext_of in *. pose proof (inside_split b (e_num e) k (e_cnt e)) as Hsp.
      assert (Hke : k <= e_cnt e) by lia. specialize (Hsp Hke). lia.
Qed.

Lemma client_run_inv : forall ops n c0 s, (0 < n)%nat -> (n <= 16)%nat -> client_inv n c0 s -> Forall (legal_op n) ops ->
  exists s', client_run s ops = Some s' /\ client_inv n c0 s'.
Proof.
  induction ops as [|o ops IH]; intros n c0 s Hn0 Hn Hinv Hall; cbn [client_run].
  - exists s. auto.
  - inversion Hall as [|x y Ho Hr]; subst.
    destruct (client_step_inv n c0 s o Hn0 Hn Hinv Ho) as [s1 [r [H1 Hi1]]]. rewrite H1. eauto.
Qed.

Lemma client_init_inv : forall c0, wf c0 -> client_inv (length c0) c0 (Client c0 [] []).
Proof.
  intros c0 Hwf. unfold client_inv. cbn [cl_cache cl_live cl_excess]. ands; auto.
  intros b. unfold total_holders. cbn [cl_cache cl_live cl_excess exts map]. rewrite !holders_nil. lia.
Qed.

(** ** Final lemmas *)
Lemma c05_lemma : forall c e ex, wf c -> e_cnt e < 65535 -> e_cnt e < 2 ^ N.of_nat (length c) ->
  exists c' pieces rejected, try_free_blks c e ex = Some (c', ex ++ rejected) /\
    tiles (e_num e) (e_cnt e) (exts pieces) /\
    Forall (fun p => exists s, In s c /\ sl_size s = e_cnt p) pieces /\
    Permutation (entries c' ++ rejected) (entries c ++ pieces) /\ wf c'.
Proof.
  intros c e ex Hwf H1 H2. destruct (try_free_spec c e ex Hwf H1 H2) as [c' [ps [rej [A [B [C [D [E F]]]]]]]].
  exists c', ps, rej. ands; auto. eapply Forall_impl; [|exact E]. intros p [i [Hi Hp]].
  destruct (nth_error c i) as [s|] eqn:Hn; [|apply nth_error_None in Hn; lia].
  exists s. split; [eapply nth_error_In; eauto|]. destruct (Hwf _ _ Hn) as [Hs _]. congruence.
Qed.

Lemma c06_history_lemma : forall c0 ops, wf c0 -> (0 < length c0 <= 16)%nat -> Forall (legal_op (length c0)) ops ->
  exists s, client_run (Client c0 [] []) ops = Some s /\
    forall b, total_holders s b = holders b (cached c0).
Proof.
  intros c0 ops Hwf [H0 H1] Hall.
  destruct (client_run_inv ops (length c0) c0 (Client c0 [] []) H0 H1 (client_init_inv c0 Hwf) Hall) as [s [Hs Hi]].
  exists s. split; [exact Hs|]. apply Hi.
Qed.

Lemma c06_disjoint_lemma : forall c0 ops s, wf c0 -> (0 < length c0 <= 16)%nat -> Forall (legal_op (length c0)) ops ->
  (forall b, (holders b (cached c0) <= 1)%nat) -> client_run (Client c0 [] []) ops = Some s ->
  forall b, (holders b (exts (cl_live s)) + holders b (cached (cl_cache s)) + holders b (exts (cl_excess s)) <= 1)%nat.
Proof.
  intros c0 ops s Hwf Hn Hall Hd Hr b.
  destruct (c06_history_lemma c0 ops Hwf Hn Hall) as [s' [Hs Hh]]. rewrite Hr in Hs. injection Hs as <-.
  specialize (Hh b). specialize (Hd b). unfold total_holders in Hh. lia.
Qed.

Lemma c06_result_lemma : forall c req, wf c -> (0 < length c <= 16)%nat -> legal_req (length c) req ->
  exists c' rs st, try_alloc_blks c req resp0 = Some (c', rs, st) /\
    blocks (exts (rs_out rs)) <= r_nblks req /\
    (st = SUCCESS <-> blocks (exts (rs_out rs)) = r_nblks req) /\
    (r_contig req = true -> (length (rs_out rs) <= 1)%nat /\ (st <> SUCCESS -> rs_out rs = [])) /\
    (st = FAILED -> blocks (exts (rs_out rs)) = 0) /\
    (st <> SUCCESS -> r_contig req = false -> r_min req = O -> cached c' = []).
Proof.
  intros c req Hwf [H0 H1] [Hl1 [Hl2 Hl3]]. destruct (pow16 _ H0 H1) as [Hp1 Hp2].
  destruct (try_alloc_spec c req Hwf Hl2 Hl3) as [c' [rs [st [H [Hw [Hl [_ [[[Ok1 _] Ok2] [Hs [Hns [Hc He]]]]]]]]]]]; [lia|].
  exists c', rs, st. split; [exact H|]. ands; auto.
  - lia.
  - split; [intros Hx; rewrite Ok1; auto|]. intros Hb. destruct st; auto; destruct Hns; try congruence; lia.
  - intros ->. destruct Hns as [_ Hx]; [congruence|]. unfold end_status in Hx.
    destruct (N.ltb_spec 0 (rs_alloced rs)); [discriminate|]. lia.
  - intros A B C. unfold cached. now rewrite He.
Qed.

(** Witnesses. *)
Definition three_slabs : cache :=
  [Slab 1 [Level 4 [Entry 100 1 0]]; Slab 2 [Level 4 []; Level 4 [Entry 8 2 1]]; Slab 4 [Level 4 [Entry 0 4 0; Entry 4 4 0]]].

Lemma three_slabs_wf : wf three_slabs.
Proof.
  intros [|[|[|i]]] s H; simpl in H; try (destruct i; discriminate); injection H as <-;
    (split; [reflexivity|]; split; [discriminate|]; repeat constructor).
Qed.

Lemma c05_too_large_lemma : try_free_blks three_slabs (Entry 200 8 2) [] = None.
Proof. vm_compute. reflexivity. Qed.

Lemma c06_min_piece_lemma : try_alloc_blks [Slab 1 [Level 4 []]; Slab 2 [Level 4 []]; Slab 4 [Level 4 []]]
  (Req 1 0 false 1 2) resp0 = None.
Proof. vm_compute. reflexivity. Qed.

(** ** Refill *)
Lemma fill_slab_spec : forall fuel c i s rq num remain lvl only c' rq' num' remain',
  wf c -> nth_error c i = Some s ->
  fill_slab fuel c i (sl_size s) rq num remain lvl only = Some (c', rq', num', remain') ->
  wf c' /\ length c' = length c /\ length rq' = length rq /\ remain' <= remain /\ num' = num + (remain - remain') /\
  exists ps, tiles num (remain - remain') (exts ps) /\ Permutation (entries c') (entries c ++ ps).
Proof.
  induction fuel as [|fuel IH]; intros c i s rq num remain lvl only c' rq' num' remain' Hwf Hn H;
    cbn [fill_slab] in H; destruct (N.leb_spec (sl_size s) remain) as [Hle|Hlt];
    try (injection H as <- <- <- <-; ands; auto; try lia; exists []; rewrite app_nil_r, N.sub_diag;
         split; [reflexivity|reflexivity]);
    destruct (nth_error rq i) as [r|] eqn:Hr; try discriminate;
    destruct (need_refill r);
    try (injection H as <- <- <- <-; ands; auto; try lia; exists []; rewrite app_nil_r, N.sub_diag;
         split; [reflexivity|reflexivity]); try discriminate.
  destruct (Hwf _ _ Hn) as [Hsz _].
  assert (Hpos : 0 < sl_size s) by (rewrite Hsz; apply N.neq_0_lt_0, N.pow_nonzero; lia).
  destruct (push_slab_spec c i s (Entry num (sl_size s) lvl) only Hwf Hn Hsz) as [c1 [p [Hp [Hw1 [Hl1 Hpm]]]]].
  rewrite Hp in H. destruct p.
  - assert (Hs1 : exists s1, nth_error c1 i = Some s1).
    { destruct (nth_error c1 i) as [s1|] eqn:E; [eauto|]. apply nth_error_None in E.
      assert ((i < length c)%nat) by (apply nth_error_Some; congruence). lia. }
    destruct Hs1 as [s1 Hs1]. destruct (Hw1 _ _ Hs1) as [Hsz1 _].
    assert (Heq : sl_size s = sl_size s1) by congruence.
    rewrite Heq in H at 1. apply (IH _ _ s1) in H; auto.
    destruct H as [A [B [B2 [C [D [ps [E F]]]]]]]. rewrite set_nth_length in B2.
    split; [exact A|]. split; [lia|]. split; [exact B2|]. split; [lia|]. split; [lia|].
    exists (Entry num (sl_size s) lvl :: ps). split.
    + change (exts (Entry num (sl_size s) lvl :: ps)) with ([(num, sl_size s)] ++ exts ps).
      replace (remain - remain') with (sl_size s + (remain - sl_size s - remain')) by lia.
      apply tiles_app; [cbn [tiles fst snd]; ands; auto; lia|exact E].
    + rewrite F, Hpm. cbn [app]. apply Permutation_middle.
  - subst c1. injection H as <- <- <- <-. rewrite set_nth_length. ands; auto; try lia. exists [].
    rewrite app_nil_r, N.sub_diag. split; reflexivity.
Qed.

Lemma fill_loop_spec : forall i c rq num remain lvl only c' rq' num' remain',
  wf c -> fill_loop c i rq num remain lvl only = Some (c', rq', num', remain') ->
  wf c' /\ length c' = length c /\ remain' <= remain /\ num' = num + (remain - remain') /\
  exists ps, tiles num (remain - remain') (exts ps) /\ Permutation (entries c') (entries c ++ ps).
Proof.
  induction i as [|i IH]; intros c rq num remain lvl only c' rq' num' remain' Hwf H; cbn [fill_loop] in H;
    match type of H with context [nth_error c ?k] => destruct (nth_error c k) as [s|] eqn:Hn; [|discriminate] end;
    match type of H with context [fill_slab ?a ?b ?c ?d ?e ?f ?g ?h ?k] =>
      destruct (fill_slab a b c d e f g h k) as [[[[c1 rq1] num1] rem1]|] eqn:Hf; [|discriminate] end;
    apply (fill_slab_spec _ _ _ s) in Hf; auto;
    destruct Hf as [A [B [B2 [C [D [ps [E F]]]]]]];
    match type of H with context [nth_error ?l ?k] => destruct (nth_error l k); [|discriminate] end.
  - injection H as <- <- <- <-. ands; auto. eauto.
  - destruct (N.eqb_spec rem1 0) as [Hz|Hz].
    + injection H as <- <- <- <-. ands; auto. eauto.
    + apply IH in H; [|exact A]. destruct H as [A' [B' [C' [D' [ps' [E' F']]]]]].
      ands; auto; try lia. exists (ps ++ ps'). split.
      * rewrite exts_app. replace (remain - remain') with ((remain - rem1) + (rem1 - remain')) by lia.
        apply tiles_app; [exact E|]. now rewrite <- D.
      * rewrite F', F. now rewrite <- app_assoc.
Qed.

Lemma try_fill_spec : forall c rq start nblks lvl only c' rq' added,
  wf c -> try_fill_cache c rq start nblks lvl only = Some (c', rq', added) ->
  wf c' /\ length c' = length c /\ added <= nblks /\
  exists ps, tiles start added (exts ps) /\ Permutation (entries c') (entries c ++ ps).
Proof.
  intros c rq start nblks lvl only c' rq' added Hwf H. unfold try_fill_cache in H. cbv zeta in H.
  match type of H with context [fill_loop ?a ?b ?c ?d ?e ?f ?g] =>
      destruct (fill_loop a b c d e f g) as [[[[c1 rq1] num1] rem1]|] eqn:Hf; [|discriminate] end.
  injection H as <- <- <-. apply fill_loop_spec in Hf; [|exact Hwf].
  destruct Hf as [A [B [C [D [ps [E F]]]]]]. ands; auto; [lia|]. eauto.
Qed.

Lemma c06_refill_lemma : forall c rq start nblks lvl only c' rq' added,
  wf c -> try_fill_cache c rq start nblks lvl only = Some (c', rq', added) ->
  added <= nblks /\ forall b, holders b (cached c') = (holders b (cached c) + holders b [(start, added)])%nat.
Proof.
  intros c rq start nblks lvl only c' rq' added Hwf H.
  destruct (try_fill_spec _ _ _ _ _ _ _ _ _ Hwf H) as [_ [_ [A [ps [T P]]]]].
  split; [exact A|]. intros b. unfold cached. rewrite (holders_exts_perm b _ _ P), exts_app, holders_app.
  rewrite (holders_tiles b _ _ _ T), holders_cons, holders_nil. lia.
Qed.

(** A session in which slab 0 is full and slab 1 is not: slab 1's slot is stored at
    index 0 and index 1 is outside the vector. *)
Definition half_full : cache :=
  [Slab 1 [Level 1 [Entry 50 1 0]]; Slab 2 [Level 2 []]].
Lemma c06_session_lemma : wf half_full /\ length (create_fill_session half_full (fun _ => 1%nat) true) = 1%nat /\
  try_fill_cache half_full (create_fill_session half_full (fun _ => 1%nat) true) 0 2 1 false = None.
Proof.
  split; [|split; vm_compute; reflexivity].
  intros [|[|i]] s H; simpl in H; try (destruct i; discriminate); injection H as <-;
    (split; [reflexivity|]; split; [discriminate|]; repeat constructor).
Qed.

Definition empty3 : cache := [Slab 1 [Level 4 []]; Slab 2 [Level 4 []]; Slab 4 [Level 4 []]].
Lemma c06_min_piece_witness : exists c req, wf c /\ r_nblks req = 1 /\ r_min req = find_slab 2 /\
  r_contig req = false /\ try_alloc_blks c req resp0 = None.
Proof.
  exists empty3, (Req 1 0 false 1 2).
  split; [|ands; vm_compute; reflexivity].
  intros [|[|[|i]]] s H; simpl in H; try (destruct i; discriminate); injection H as <-;
    (split; [reflexivity|]; split; [discriminate|]; repeat constructor).
Qed.
Lemma c06_session_witness : exists c, wf c /\
  (length (create_fill_session c (fun _ => 1%nat) true) < length c)%nat /\
  try_fill_cache c (create_fill_session c (fun _ => 1%nat) true) 0 2 1 false = None.
Proof.
  exists half_full. destruct c06_session_lemma as [A [B C]]. split; [exact A|]. split; [rewrite B; vm_compute; lia|exact C].
Qed.
Lemma c05_too_large_witness : exists c e, wf c /\ e_cnt e = 2 ^ N.of_nat (length c) /\ try_free_blks c e [] = None.
Proof. exists three_slabs, (Entry 200 8 2). split; [exact three_slabs_wf|]. split; [reflexivity|exact c05_too_large_lemma]. Qed.
