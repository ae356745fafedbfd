(** The B-tree is a map: the theorems. *)
From Coq Require Import ZArith NArith List Bool Lia.
From Coq Require Import ZifyBool ZifyNat ZifyN.
From Verif Require Import Base BtNodeModel BtNodeSpec BtNodeProofs BtreeModel BtreeInv.
From Verif Require Import BtreePut BtreeMerge BtreeMerge2 BtreeRemove BtreeTotal BtreeTotal2.
From Verif Require Import BtreeTotal3 BtreeSpec.
Import ListNotations.

(** ** Runs of the model *)

(** The next node id and the tree. *)
Definition state := (N * tree)%type.

(** A new B-tree: an empty leaf as root, btree.ipp 36-47. *)
Definition new_tree : state := (1%N, Leaf 0 no_id []).

Definition step (c : cfg) (fuel : nat) (s : state) (o : op) : res (state * out) :=
  match o with
  | OPut kd k v f =>
      match put c fuel (fst s) (snd s) kd k v f with
      | Stop e => Stop e
      | Ok (t, nx, st, old) => Ok ((nx, t), RPut st old)
      end
  | OGet k =>
      match get (snd s) k with
      | Stop e => Stop e
      | Ok v => Ok (s, RGet v)
      end
  | ORemove k =>
      match remove c fuel (fst s) (snd s) k with
      | Stop e => Stop e
      | Ok (t, nx, st, old) => Ok ((nx, t), RRemove st old)
      end
  end.

Fixpoint run (c : cfg) (fuel : nat) (s : state) (ops : list op) : res (state * list out) :=
  match ops with
  | [] => Ok (s, [])
  | o :: r =>
      match step c fuel s o with
      | Stop e => Stop e
      | Ok (s', x) =>
          match run c fuel s' r with
          | Stop e => Stop e
          | Ok (s'', xs) => Ok (s'', x :: xs)
          end
      end
  end.

(** ** The map a tree holds *)

Definition holds (t : tree) (m : fmap) : Prop := forall k, assoc (content t) k = m k.

Lemma tree_ok_sorted : forall nx t, tree_ok nx t -> sorted (content t).
Proof. intros nx t [[h HW] _]. exact (proj1 (wf_content _ _ _ _ HW)). Qed.

Lemma new_tree_ok : tree_ok 1 (Leaf 0 no_id []).
Proof.
  split; [exists 0%nat; apply leaf_ok_nil|]. split; [exists 0%N; cbn; auto|]. cbn.
  split; constructor; try constructor; cbn; try tauto; lia.
Qed.

Lemma put_holds : forall kd k v f es es' st old m, sorted es -> (forall k', assoc es k' = m k') ->
  put_ok kd k v f es es' st old ->
  RPut st old = snd (sstep m (OPut kd k v f)) /\
  forall k', assoc es' k' = fst (sstep m (OPut kd k v f)) k'.
Proof.
  intros kd k v f es es' st old m HS HM [H1 [H2 H3]]. cbn [sstep].
  rewrite HM in H1, H2. destruct (put_spec kd v f k (m k)) as [st0 new] eqn:EP.
  cbn [fst snd] in *. subst st0 old. split; [reflexivity|]. intros k'. unfold fset.
  assert (HN : (st = StSuccess /\ new = Some v) \/ (is_success st = false /\ new = m k)).
  { unfold put_spec in EP. destruct (m k) as [v0|].
    - destruct (match f with Some g => match g k v0 v with DReplace => false | _ => true end
                | None => false end).
      + injection EP as <- <-. now right.
      + destruct kd; injection EP as <- <-; auto.
    - destruct kd; injection EP as <- <-; auto. }
  destruct HN as [[-> ->]|[Hf ->]].
  - cbn in H3. subst es'. rewrite put_list_assoc by assumption. rewrite HM. reflexivity.
  - rewrite Hf in H3. subst es'. rewrite HM.
    destruct (Z.eqb_spec k' k) as [->|]; reflexivity.
Qed.

Lemma remove_holds : forall k es es' st old m, sorted es -> (forall k', assoc es k' = m k') ->
  remove_ok k es es' st old ->
  RRemove st old = snd (sstep m (ORemove k)) /\
  forall k', assoc es' k' = fst (sstep m (ORemove k)) k'.
Proof.
  intros k es es' st old m HS HM [H1 [H2 H3]]. cbn [sstep fst snd].
  rewrite HM in H1, H2. subst. split; [reflexivity|]. intros k'. unfold fset.
  rewrite del_list_assoc by assumption. rewrite HM. reflexivity.
Qed.

Lemma step_ok : forall c fuel s o s' x m, cfg_ok c -> tree_ok (fst s) (snd s) ->
  holds (snd s) m -> step c fuel s o = Ok (s', x) ->
  tree_ok (fst s') (snd s') /\ x = snd (sstep m o) /\ holds (snd s') (fst (sstep m o)).
Proof.
  intros c fuel [nx t] o s' x m Hok HT HM HR. cbn [fst snd] in *.
  pose proof (tree_ok_sorted _ _ HT) as HS. destruct o as [kd k v f|k|k]; cbn [step fst snd] in HR.
  - destruct (put c fuel nx t kd k v f) as [[[[t' nx'] st] old]|] eqn:EP; [|discriminate].
    injection HR as <- <-. cbn [fst snd].
    destruct (put_tree_ok _ _ _ _ _ _ _ _ _ _ _ _ HT EP) as [H1 H2]. split; [assumption|].
    exact (put_holds _ _ _ _ _ _ _ _ _ HS HM H2).
  - rewrite (get_tree_ok _ _ _ HT) in HR. injection HR as <- <-. cbn [fst snd].
    split; [assumption|]. split; [cbn; now rewrite HM|exact HM].
  - destruct (remove c fuel nx t k) as [[[[t' nx'] st] old]|] eqn:EP; [|discriminate].
    injection HR as <- <-. cbn [fst snd].
    destruct (remove_tree_ok c Hok _ _ _ _ _ _ _ _ HT EP) as [H1 H2]. split; [assumption|].
    exact (remove_holds _ _ _ _ _ _ HS HM H2).
Qed.

Lemma run_ok : forall c fuel ops s s' xs m, cfg_ok c -> tree_ok (fst s) (snd s) ->
  holds (snd s) m -> run c fuel s ops = Ok (s', xs) ->
  tree_ok (fst s') (snd s') /\ xs = srun m ops /\ holds (snd s') (send m ops).
Proof.
  intros c fuel. induction ops as [|o ops IH]; intros s s' xs m Hok HT HM HR; cbn [run] in HR.
  - injection HR as <- <-. auto.
  - destruct (step c fuel s o) as [[s1 x]|] eqn:ES; [|discriminate].
    destruct (run c fuel s1 ops) as [[s2 xs']|] eqn:ER; [|discriminate].
    injection HR as <- <-.
    destruct (step_ok _ _ _ _ _ _ _ Hok HT HM ES) as [H1 [H2 H3]].
    destruct (IH _ _ _ _ Hok H1 H3 ER) as [H4 [H5 H6]].
    split; [assumption|]. cbn [srun send fold_left]. subst x xs'.
    destruct (sstep m o) as [m' x'] eqn:EM. cbn [fst snd] in *. auto.
Qed.

(** ** C35: a map *)

(** Entries of any sizes, any splits and merges: if the operations end, they
    answer what a map answers, and what is in the tree afterwards is what is in
    the map. *)
Theorem c35_map : forall c fuel ops nx t xs, cfg_ok c ->
  run c fuel new_tree ops = Ok ((nx, t), xs) ->
  xs = srun (fun _ => None) ops /\
  forall k, get t k = Ok (send (fun _ => None) ops k).
Proof.
  intros c fuel ops nx t xs Hok HR.
  destruct (run_ok _ _ _ new_tree _ _ (fun _ => None) Hok new_tree_ok (fun _ => eq_refl) HR)
    as [H1 [H2 H3]]. cbn [fst snd] in *.
  split; [assumption|]. intros k. rewrite (get_tree_ok _ _ _ H1). f_equal. apply H3.
Qed.
Print Assumptions c35_map.

(** Entries of fixed size: the operations end. *)
Theorem c35_map_fixed : forall c sl si, cfg_fixed c sl si -> cfg_ok c ->
  merge_ends c sl -> merge_ends c si -> c_merge c = true ->
  forall ops, exists F, forall fuel, (F <= fuel)%nat ->
  exists s, run c fuel new_tree ops = Ok (s, srun (fun _ => None) ops).
Proof.
  intros c sl si Hfx Hok Hel Hei HM ops.
  set (cp := cap c si).
  set (need := fun h : nat => (h * (cp + 8) + cp + 12)%nat).
  assert (Hgo : forall ops h s m fuel, tree_ok (fst s) (snd s) -> holds (snd s) m ->
    wf h NegInf PosInf (snd s) -> fits c sl si h (snd s) ->
    (need (h + length ops) <= fuel)%nat ->
    exists s', run c fuel s ops = Ok (s', srun m ops)).
  { clear ops. induction ops as [|o ops IH]; intros h [nx t] m fuel HT HH HW HF HFu.
    { eexists. reflexivity. }
    cbn [fst snd length] in *. cbn [run].
    assert (Hstep : exists s1 x h1, step c fuel (nx, t) o = Ok (s1, x) /\
      wf h1 NegInf PosInf (snd s1) /\ fits c sl si h1 (snd s1) /\ (h1 <= S h)%nat).
    { destruct o as [kd k v f|k|k]; cbn [step fst snd].
      - destruct (put_total c sl si Hfx fuel h t nx kd k v f HW HF)
          as [t' [nx' [st [old [h' [HR [W [F L]]]]]]]]; [unfold need in HFu; lia|].
        rewrite HR. do 2 eexists. exists h'. split; [reflexivity|]. cbn [snd]. auto.
      - rewrite (get_tree_ok _ _ _ HT). do 2 eexists. exists h. split; [reflexivity|].
        cbn [snd]. auto.
      - destruct (remove_total c sl si Hfx Hok Hel Hei h fuel t nx k HM HW HF)
          as [t' [nx' [st [old [h' [HR [W [F L]]]]]]]];
          [fold cp; unfold need in HFu; nia|].
        rewrite HR. do 2 eexists. exists h'. split; [reflexivity|]. cbn [snd]. auto. }
    destruct Hstep as [s1 [x [h1 [ES [W1 [F1 L1]]]]]]. rewrite ES.
    destruct (step_ok c fuel (nx, t) o s1 x m Hok HT HH ES) as [H1 [H2 H3]].
    destruct (IH h1 s1 (fst (sstep m o)) fuel H1 H3 W1 F1) as [s' HR].
    - unfold need in *. nia.
    - rewrite HR. exists s'. cbn [srun]. subst x.
      destruct (sstep m o) as [m' x']. reflexivity. }
  exists (need (0 + length ops)%nat). intros fuel HFu.
  apply (Hgo ops 0%nat new_tree); [apply new_tree_ok|intros k; reflexivity|apply leaf_ok_nil| |
    exact HFu].
  cbn. rewrite N.mul_0_r. apply N.le_0_l.
Qed.
Print Assumptions c35_map_fixed.

(** At 90 percent ideal fill no merge gets stuck when four or more entries go
    into a node. *)
Theorem c35_merge_ends : forall c s, (0 < s)%N -> (4 * s <= c_data c)%N ->
  c_ideal c = (c_data c * 90 / 100)%N -> merge_ends c s.
Proof.
  intros c s Hs HD HI. unfold merge_ends. rewrite HI.
  assert (H1 : (100 * (c_data c * 90 / 100) <= c_data c * 90)%N) by (apply N.mul_div_le; lia).
  assert (H2 : (c_data c * 90 < 100 * (c_data c * 90 / 100) + 100)%N).
  { pose proof (N.mul_succ_div_gt (c_data c * 90) 100 ltac:(lia)). lia. }
  set (i := (c_data c * 90 / 100)%N) in *. clearbody i.
  set (q := (c_data c / s)%N).
  assert (Hq : (4 <= q)%N) by (apply N.div_le_lower_bound; lia).
  assert (H3 : (c_data c < s * (q + 1))%N).
  { pose proof (N.mul_succ_div_gt (c_data c) s ltac:(lia)). fold q in H. lia. }
  clearbody q. split.
  - nia.
  - assert (H4 : (s * 4 <= s * q)%N) by (apply N.mul_le_mono_l; lia). nia.
Qed.
Print Assumptions c35_merge_ends.

(** A configuration: four entries of 10 bytes to a node, 90 and 30 percent. *)
Definition cfg40 : cfg := {|
  c_data := 40; c_hdr := 0; c_lsz := fun _ _ => 10; c_isz := fun _ => 10;
  c_need := fun kd _ _ => match kd with PUpdate => 0 | _ => 10 end;
  c_ineed := 10; c_min := 12; c_ideal := 36; c_max_merge := 3; c_max_level := 1;
  c_merge := true; c_rebal := false; c_fixedk := true; c_kmax := 8; c_link := 12;
  c_k0 := 0 |}%N.

Example cfg40_meets : cfg_fixed cfg40 10 10 /\ cfg_ok cfg40 /\ merge_ends cfg40 10 /\
  c_merge cfg40 = true.
Proof.
  split; [|split; [|split; [|reflexivity]]].
  - constructor; try (intros; reflexivity); cbn; try lia.
  - constructor; cbn; try (intros; lia); try lia; reflexivity.
  - split; cbn; lia.
Qed.

(** Twelve keys in and most of them out again, with splits to height 2, merges
    and a collapse of the root. *)
Definition ops40 : list op :=
  map (fun i => OPut PInsert (Z.of_nat i * 3) (N.of_nat i) None) (seq 0 12) ++
  [OGet 33; OPut PUpdate 33 7 None; OPut PInsert 33 8 None; OGet 33; OGet 34] ++
  map (fun i => ORemove (Z.of_nat i * 3)) (seq 1 10) ++
  [ORemove 1; ORemove 1; ORemove 2; OGet 33; OGet 3; ORemove 33; OGet 0].

Example c35_example : exists nx t xs nx1 t1 xs1,
  run cfg40 200 new_tree ops40 = Ok ((nx, t), xs) /\ level t = 0%nat /\
  run cfg40 200 new_tree (firstn 12 ops40) = Ok ((nx1, t1), xs1) /\ level t1 = 2%nat /\
  firstn 5 (skipn 12 xs) = [RGet (Some 11); RPut StSuccess (Some 11); RPut StExists (Some 7);
                            RGet (Some 7); RGet None]%N /\
  skipn 29 xs = [RRemove StNotFound None; RGet (Some 7); RGet None;
                 RRemove StSuccess (Some 7); RGet (Some 0)]%N.
Proof.
  destruct (run cfg40 200 new_tree ops40) as [[[nx t] xs]|] eqn:E1; [|vm_compute in E1; discriminate].
  destruct (run cfg40 200 new_tree (firstn 12 ops40)) as [[[nx1 t1] xs1]|] eqn:E2;
    [|vm_compute in E2; discriminate].
  exists nx, t, xs, nx1, t1, xs1.
  vm_compute in E1. injection E1 as <- <- <-. vm_compute in E2. injection E2 as <- <- <-.
  vm_compute. tauto.
Qed.

(** ** C69: a removal ends *)

(** With the percentages of the code, for fixed sizes of which four or more go
    into a node. *)
Theorem c69_remove_ends_partial : forall c sl si, cfg_fixed c sl si -> cfg_ok c ->
  (4 * sl <= c_data c)%N -> (4 * si <= c_data c)%N ->
  c_ideal c = (c_data c * 90 / 100)%N -> c_merge c = true ->
  forall ops k, exists F, forall fuel, (F <= fuel)%nat ->
  exists nx t xs t' nx' st old, run c fuel new_tree ops = Ok ((nx, t), xs) /\
    remove c fuel nx t k = Ok (t', nx', st, old).
Proof.
  intros c sl si Hfx Hok Hl Hi HI HM ops k. pose proof (fx_pos _ _ _ Hfx) as [P1 P2].
  destruct (c35_map_fixed c sl si Hfx Hok (c35_merge_ends c sl P1 Hl HI)
              (c35_merge_ends c si P2 Hi HI) HM (ops ++ [ORemove k])) as [F HF].
  exists F. intros fuel Hfu. destruct (HF fuel Hfu) as [s HR]. clear HF.
  remember (srun (fun _ => None) (ops ++ [ORemove k])) as ys eqn:EY. clear EY.
  revert s ys HR. generalize new_tree.
  induction ops as [|o ops IH]; intros s s' ys HR; cbn [app run] in HR.
  - cbn [step] in HR. destruct s as [nx t]. cbn [fst snd] in HR.
    destruct (remove c fuel nx t k) as [[[[t' nx'] st] old]|] eqn:ER; [|discriminate].
    do 7 eexists. split; [reflexivity|exact ER].
  - destruct (step c fuel s o) as [[s1 x]|] eqn:ES; [|discriminate].
    destruct (run c fuel s1 (ops ++ [ORemove k])) as [[s2 xs]|] eqn:ER; [|discriminate].
    destruct (IH s1 s2 xs ER) as [nx [t [xs1 [t' [nx' [st [old [H1 H2]]]]]]]].
    exists nx, t, (x :: xs1), t', nx', st, old. cbn [run]. rewrite ES, H1. auto.
Qed.
Print Assumptions c69_remove_ends_partial.

Lemma copy_stuck_free : forall c A B (sz : Z * A -> N) fuel num balanced
    (o : list (Z * A) * option B) r j cur rn tsz tent p,
  nth_error (fst o) j = Some p -> (c_data c - total sz (fst cur) < sz p)%N ->
  (0 < c_data c - total sz (fst cur) < 2 ^ 32)%N ->
  N.of_nat (length (cur :: rn)) = (num - 1)%N -> (tsz < c_data c - total sz (fst cur))%N ->
  snd o = None ->
  copy_loop c sz fuel num balanced (o :: r) j (cur :: rn)
    (Z.of_N (c_data c - total sz (fst cur))) tsz tent = Stop NoFuel.
Proof.
  intros c A B sz. induction fuel as [|fuel IH];
    intros num balanced o r j cur rn tsz tent p HP HB HF HN HT HO; [reflexivity|].
  cbn [copy_loop].
  assert (Hz : (Z.of_N (c_data c - total sz (fst cur)) =? 0)%Z = false).
  { apply Z.eqb_neq. destruct HF. lia. }
  rewrite Hz. cbn [andb].
  assert (Hm : (Z.of_N (c_data c - total sz (fst cur)) mod 2 ^ 32 =
                Z.of_N (c_data c - total sz (fst cur)))%Z).
  { apply Z.mod_small. split; [apply N2Z.is_nonneg|]. destruct HF as [_ HF].
    change (2 ^ 32)%Z with (Z.of_N (2 ^ 32)). now apply N2Z.inj_lt. }
  rewrite Hm, N2Z.id. unfold copy_size. rewrite N.min_id, HO.
  assert (Hs : exists es, skipn j (fst o) = p :: es).
  { apply nth_error_split in HP. destruct HP as [a [b [-> <-]]]. exists b.
    apply skipn_len_app. }
  destruct Hs as [es Hs]. cbn [fst snd].
  rewrite Hs. cbn [fit]. rewrite (proj2 (N.leb_gt _ _) HB).
  cbn [firstn fst snd]. rewrite app_nil_r, N.sub_diag, !N.sub_0_r, Nat.add_0_r.
  assert (Hj : (length (fst o) =? j)%nat = false).
  { apply Nat.eqb_neq. intros E. assert (j < length (fst o))%nat
      by (apply nth_error_Some; congruence). lia. }
  rewrite Hj, HN, N.eqb_refl, (proj2 (N.ltb_lt _ _) HT). cbn [andb].
  replace (fst cur, snd cur) with cur by (now destruct cur).
  eapply IH; eassumption.
Qed.

(** Three entries of 1000 bytes to a node of 3950. *)
Definition cfg3 : cfg := {|
  c_data := 3950; c_hdr := 0; c_lsz := fun _ _ => 1000; c_isz := fun _ => 1000;
  c_need := fun kd _ _ => match kd with PUpdate => 0 | _ => 1000 end;
  c_ineed := 1000; c_min := 1185; c_ideal := 3555; c_max_merge := 3; c_max_level := 1;
  c_merge := true; c_rebal := false; c_fixedk := true; c_kmax := 988; c_link := 12;
  c_k0 := 0 |}%N.

(** Leaves of one, three and three entries. *)
Definition ops3 : list op :=
  map (fun k => OPut PInsert k 1 None) [10; 20; 30; 40; 15; 50; 60; 35; 70]%Z ++
  [ORemove 10; ORemove 15].

(** A removal loops for ever: seven entries are to go into two nodes of three
    entries and a bit. *)
Theorem c69_remove_ends_refuted :
  cfg_fixed cfg3 1000 1000 /\ cfg_ok cfg3 /\ c_ideal cfg3 = (c_data cfg3 * 90 / 100)%N /\
  exists nx t xs, run cfg3 100 new_tree ops3 = Ok ((nx, t), xs) /\
    get t 20 = Ok (Some 1%N) /\
    forall fuel, remove cfg3 fuel nx t 20 = Stop NoFuel.
Proof.
  split; [constructor; try (intros; reflexivity); cbn; lia|].
  split; [constructor; cbn; try (intros; lia); try lia; reflexivity|].
  split; [reflexivity|].
  do 3 eexists. split; [vm_compute; reflexivity|]. split; [vm_compute; reflexivity|].
  assert (HL : forall fuel, copy_loop (B := N) cfg3 (lsz cfg3) fuel 2%N 3500%N
      [([(30%Z, 1%N); (35%Z, 1%N); (40%Z, 1%N)], None); ([(50%Z, 1%N); (60%Z, 1%N); (70%Z, 1%N)], None)] 2%nat
      [] 0%Z 3500%N 4%N = Stop NoFuel).
  { intros [|[|fuel]]; [vm_compute; reflexivity..|].
    exact (copy_stuck_free cfg3 N N (lsz cfg3) fuel 2%N 3500%N
             ([(50%Z, 1%N); (60%Z, 1%N); (70%Z, 1%N)], None) [] 2%nat
             ([(40%Z, 1%N); (50%Z, 1%N); (60%Z, 1%N)], None) [] 500%N 1%N (70%Z, 1%N)
             eq_refl eq_refl (conj eq_refl eq_refl) eq_refl eq_refl eq_refl). }
  assert (HR : forall fuel, redistribute (B := N) cfg3 (lsz cfg3) fuel
      ([(20%Z, 1%N)], None)
      [([(30%Z, 1%N); (35%Z, 1%N); (40%Z, 1%N)], None); ([(50%Z, 1%N); (60%Z, 1%N); (70%Z, 1%N)], None)]
      = Stop NoFuel).
  { intros fuel.
    specialize (HL fuel). cbv -[copy_loop] in HL |- *. rewrite HL. reflexivity. }
  assert (HD : forall fuel nx t, Ok (nx, t, []) = match run cfg3 100 new_tree ops3 with
      Ok (nx, t, _) => Ok (nx, t, @nil out) | Stop e => Stop e end ->
      do_remove cfg3 fuel nx t 20 = Stop NoFuel).
  { intros fuel nx t Hn. vm_compute in Hn. injection Hn as -> ->.
    destruct fuel as [|fuel]; [reflexivity|]. cbn -[redistribute]. 
    rewrite HR. reflexivity. }
  intros [|fuel]; [reflexivity|]. cbn [remove]. apply HD. vm_compute. reflexivity.
Qed.
Print Assumptions c69_remove_ends_refuted.

(** ** C70: an entry that fits in a node can be put *)

(** For fixed sizes with the percentages of the code. *)
Theorem c70_put_returns_partial : forall c sl si, cfg_fixed c sl si -> cfg_ok c ->
  (4 * sl <= c_data c)%N -> (4 * si <= c_data c)%N ->
  c_ideal c = (c_data c * 90 / 100)%N -> c_merge c = true ->
  forall ops kd k v f, exists F, forall fuel, (F <= fuel)%nat ->
  exists nx t xs t' nx' st old, run c fuel new_tree ops = Ok ((nx, t), xs) /\
    put c fuel nx t kd k v f = Ok (t', nx', st, old).
Proof.
  intros c sl si Hfx Hok Hl Hi HI HM ops kd k v f. pose proof (fx_pos _ _ _ Hfx) as [P1 P2].
  destruct (c35_map_fixed c sl si Hfx Hok (c35_merge_ends c sl P1 Hl HI)
              (c35_merge_ends c si P2 Hi HI) HM (ops ++ [OPut kd k v f])) as [F HF].
  exists F. intros fuel Hfu. destruct (HF fuel Hfu) as [s HR]. clear HF.
  remember (srun (fun _ => None) (ops ++ [OPut kd k v f])) as ys eqn:EY. clear EY.
  revert s ys HR. generalize new_tree.
  induction ops as [|o ops IH]; intros s s' ys HR; cbn [app run] in HR.
  - cbn [step] in HR. destruct s as [nx t]. cbn [fst snd] in HR.
    destruct (put c fuel nx t kd k v f) as [[[[t' nx'] st] old]|] eqn:ER; [|discriminate].
    do 7 eexists. split; [reflexivity|exact ER].
  - destruct (step c fuel s o) as [[s1 x]|] eqn:ES; [|discriminate].
    destruct (run c fuel s1 (ops ++ [OPut kd k v f])) as [[s2 xs]|] eqn:ER; [|discriminate].
    destruct (IH s1 s2 xs ER) as [nx [t [xs1 [t' [nx' [st [old [H1 H2]]]]]]]].
    exists nx, t, (x :: xs1), t', nx', st, old. cbn [run]. rewrite ES, H1. auto.
Qed.
Print Assumptions c70_put_returns_partial.

(** Keys of 4 and of 100 bytes in nodes of 400: the sizes of VariableNode with
    records of 6 bytes and links of 12.  Every entry is a third of a node at
    most when the values have up to 20 bytes. *)
Definition klen (k : Z) : N := (if (k mod 4 =? 0)%Z then 100 else 4)%N.
Definition cfgv : cfg := {|
  c_data := 400; c_hdr := 10; c_lsz := fun k v => klen k + v + 6;
  c_isz := fun k => klen k + 18;
  c_need := fun kd k v => klen k + v + match kd with PUpdate => 0 | _ => 6 end;
  c_ineed := 118; c_min := 120; c_ideal := 360; c_max_merge := 3; c_max_level := 1;
  c_merge := true; c_rebal := false; c_fixedk := false; c_kmax := 100; c_link := 12;
  c_k0 := 0 |}%N.

Definition ins (p : Z * Z) : op := OPut PInsert (fst p) (Z.to_N (snd p)) None.

Definition opsv : list op :=
  map ins [(27, 11); (15, 4); (32, 1); (46, 7); (54, 8); (94, 19); (24, 16); (100, 4);
           (112, 11); (5, 4); (28, 10); (108, 4)]%Z.

(** Splitting a leaf once may not make the room that is asked for; the second
    split finds no room in the parent, which was asked for before the first one
    only, and the process stops.  And a leaf whose entries are over half of the
    node each cannot be split. *)
Theorem c70_put_returns_refuted :
  (exists nx t xs, run cfgv 60 new_tree opsv = Ok ((nx, t), xs) /\
     put cfgv 60 nx t PInsert 28 11%N None = Stop NodeFull) /\
  (exists nx t xs, run cfgv 60 new_tree [ins (1, 200)%Z] = Ok ((nx, t), xs) /\
     put cfgv 60 nx t PInsert 2 200%N None = Stop SplitAssert).
Proof. split; do 3 eexists; (split; [vm_compute; reflexivity|vm_compute; reflexivity]). Qed.
Print Assumptions c70_put_returns_refuted.

(** ** C71: a removal never stops the process *)

Definition opsm : list op :=
  map ins [(8, 7); (102, 3); (98, 17); (6, 17); (44, 9); (47, 20); (18, 18); (61, 11); (23, 14);
           (26, 1); (13, 3); (3, 20); (22, 7); (32, 6); (9, 19); (19, 14); (10, 1); (11, 4);
           (20, 14); (17, 6); (24, 9); (8, 14)]%Z.

(** A merge enters longer keys into the parent than there is room for. *)
Theorem c71_remove_room_refuted : exists nx t xs,
  run cfgv 60 new_tree opsm = Ok ((nx, t), xs) /\
  remove cfgv 60 nx t 14 = Stop NodeFull.
Proof. do 3 eexists. split; [vm_compute; reflexivity|vm_compute; reflexivity]. Qed.
Print Assumptions c71_remove_room_refuted.
