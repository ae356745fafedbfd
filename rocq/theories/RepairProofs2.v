(** * The repair of a node that ends its level, and of one that does not. *)
From Coq Require Import ZArith List Bool Arith Lia Permutation.
From Verif Require Import Base RepairModel RepairSpec RepairProofs.
Import ListNotations.

Lemma put_all_other : forall l d i, ~ In i (map fst l) -> put_all d l i = d i.
Proof.
  induction l as [|[j n] l IH]; intros d i H; [reflexivity|]. cbn in *. rewrite IH by tauto.
  unfold dput. destruct (Nat.eqb_spec i j); [subst; tauto|reflexivity].
Qed.
Lemma put_all_in : forall l d i n, NoDup (map fst l) -> In (i, n) l -> put_all d l i = Some (set_mine n).
Proof.
  induction l as [|[j m] l IH]; intros d i n HN HI; [contradiction|]. cbn in *. inversion HN; subst.
  destruct HI as [E|HI]; [|now apply IH]. injection E as -> ->. rewrite put_all_other by assumption.
  unfold dput. now rewrite Nat.eqb_refl.
Qed.

Lemma chain_nil d a e : chain d a [] e -> a = e.
Proof. inversion 1; reflexivity. Qed.
Definition mined (q : nat * node) : nat * node := (fst q, set_mine (snd q)).
Lemma linked_chain d : forall ps nxt, linked ps nxt -> ps <> [] -> (forall q, In q ps -> d (fst q) = Some (set_mine (snd q))) ->
  chain d (option_map fst (head (map mined ps))) (map mined ps) nxt.
Proof.
  induction ps as [|[i n] ps IH]; intros nxt HL HN HD; [congruence|]. cbn in *. destruct HL as [H1 H2].
  constructor; [now apply (HD (i, n)); left|]. cbn. rewrite H1. destruct ps as [|[j m] ps]; [constructor|].
  apply (IH nxt); [exact H2|discriminate|]. intros q Hq. apply HD. now right.
Qed.

Lemma root_ents_ok : forall ps l, (forall q, In q ps -> has_edge (snd q) = false) -> has_edge (snd l) = true ->
  root_ents (ps ++ [l]) = (map (fun q => (last_key (snd q), fst q)) ps, Some (fst l)).
Proof.
  induction ps as [|[i n] ps IH]; intros [j m] HE HL; cbn in *; [now rewrite HL|].
  rewrite (IH (j, m)); auto. assert (X := HE (i, n) (or_introl eq_refl)). cbn in X. rewrite X. reflexivity.
Qed.

(** What is written: all the parents, and a new root when there is one. *)
Lemma write_row d ps last rn D :
  NoDup (map fst (ps ++ [last] ++ rn)) ->
  D = match ps with
      | [] => put_all d [last]
      | first :: others => put_all d (others ++ [last] ++ rn ++ [first])
      end ->
  (forall q, In q (ps ++ [last]) -> D (fst q) = Some (set_mine (snd q))) /\
  (ps <> [] -> forall q, In q rn -> D (fst q) = Some (set_mine (snd q))) /\
  (forall i, ~ In i (map fst (ps ++ [last] ++ rn)) -> D i = d i).
Proof.
  intros HN ->. destruct ps as [|f ps].
  - ands.
    + intros q [<-|[]]. destruct last as [i n]. apply put_all_in; [cbn; repeat constructor; auto|now left].
    + congruence.
    + intros i Hi. apply put_all_other. cbn in *. tauto.
  - assert (HN' : NoDup (map fst (ps ++ [last] ++ rn ++ [f]))).
    { apply (Permutation_NoDup (l := map fst ((f :: ps) ++ [last] ++ rn))); [|assumption]. apply Permutation_map.
      rewrite !app_assoc. cbn [app]. rewrite <- !app_assoc. rewrite (Permutation_cons_append (ps ++ [last] ++ rn) f), <- !app_assoc. reflexivity. }
    ands.
    + intros [i n] Hq. apply put_all_in; [assumption|]. change ((f :: ps) ++ [last]) with ([f] ++ ps ++ [last]) in Hq.
      repeat rewrite in_app_iff in Hq. repeat rewrite in_app_iff. tauto.
    + intros _ [i n] Hq. apply put_all_in; [assumption|]. repeat rewrite in_app_iff. tauto.
    + intros i Hi. apply put_all_other. intros X. apply Hi. change ((f :: ps) ++ [last] ++ rn) with ([f] ++ ps ++ [last] ++ rn).
      repeat rewrite map_app, in_app_iff in X. repeat rewrite map_app, in_app_iff. tauto.
Qed.

Lemma entry_key p x c : w_orig x = map (fun e => (snd e, fst e)) (n_ents p) -> (key_of x c, fst c) = entry p c.
Proof.
  intros E. unfold entry, key_of. rewrite E, orig_find. destruct (n_ents (snd c)); [|reflexivity].
  now destruct (find _ _).
Qed.
Lemma orig_was p i : (exists k, orig_key (map (fun e => (snd e, fst e)) (n_ents p)) i = Some k) <-> was_child p i = true.
Proof.
  rewrite orig_find. unfold was_child. rewrite existsb_exists.
  destruct (find (fun e => Nat.eqb (snd e) i) (rev (n_ents p))) as [e|] eqn:E.
  - apply find_some in E. split; [|eauto]. intros _. exists e. rewrite in_rev. assumption.
  - split; [intros [k X]; discriminate|]. intros (e & H1 & H2). apply in_rev in H1.
    exfalso. assert (X := find_none _ _ E e H1). cbn in X. congruence.
Qed.

Lemma init_inv x d pid ids lvl p2 c0 :
  n_leaf p2 = false -> n_del p2 = false -> n_level p2 = lvl -> n_ents p2 = [] -> n_edge p2 = None ->
  winv x d pid ids lvl (n_next p2) (Some c0) [] (Wst d ids (pid, p2) []) None (Some c0).
Proof.
  intros H1 H2 H3 H4 H5. constructor; unfold pars; cbn; auto.
  - intros q [<-|[]]. cbn. auto.
  - contradiction.
  - rewrite H4. cbn. lia.
  - now rewrite H4.
  - exists []. ands; [constructor|constructor|reflexivity].
  - intros [|y l0] c E; discriminate.
Qed.

Section Edge.
Variables (fuel cap : nat) (d : disk) (root : nat) (ids : list nat) (pid : nat) (p : node).
Variables (h i0 : nat) (body : list (nat * node)) (e : nat) (en : node).
Hypothesis Hcap : 0 < cap.
Hypothesis Hleaf : n_leaf p = false.
Hypothesis Hdel : n_del p = false.
Hypothesis Hsib : live_right d h (n_next p) None.
Hypothesis Hfirst : first_child p = Some i0.
Hypothesis Hchain : chain d (Some i0) (body ++ [(e, en)]) None.
Hypothesis Hend : rightmost en = true.
Hypothesis Hlive : n_del en = false.
Hypothesis Hinner : forall c, In c body -> inner p c.
Hypothesis Hhead : forall c l, body = c :: l -> n_del (snd c) = false.
Hypothesis Hnd : NoDup (pid :: ids ++ map fst (body ++ [(e, en)])).
Hypothesis Hids : length body < length ids.
Hypothesis Hfuel : h + length body < fuel.

Lemma repair_edge : exists o ps,
  repair_links fuel cap d root ids pid p = Ok o /\ o_ok o = true /\
  row (o_disk o) cap (n_level p) ps (map (entry p) (live body)) (Some e) None /\
  ps <> [] /\ (exists ids', pid :: ids = map fst ps ++ ids') /\
  (exists cs, Forall2 relinked (live body ++ [(e, en)]) cs /\ chain (o_disk o) (Some i0) cs None) /\
  (forall i, ~ In i (pid :: ids ++ map fst body) -> o_disk o i = d i) /\
  (if Nat.eqb root pid && Nat.ltb 1 (length ps) then
     exists rn, In (o_root o) ids /\ ~ In (o_root o) (map fst ps) /\ o_disk o (o_root o) = Some rn /\ n_leaf rn = false /\ n_level rn = S (n_level p) /\
       n_ents rn = map (fun q => (last_key (snd q), fst q)) (removelast ps) /\
       n_edge rn = option_map fst (head (rev ps)) /\ n_next rn = None
   else o_root o = root).
Proof.
  set (x := Ctx true None (map (fun e => (snd e, fst e)) (n_ents p)) (last_key p) None cap).
  set (p2 := set_edge None (set_ents [] p)).
  assert (HB := Hchain). apply chain_app in HB. destruct HB as (m & HB1 & HB2).
  inversion HB2 as [|e' en' l' m' He HB3]; subst. assert (Hen := chain_nil _ _ _ HB3).
  assert (HW : forall c, In c body -> wants x (snd c) (fst c) = true).
  { intros c Hc. destruct (Hinner c Hc) as [H1 H2]. unfold wants. rewrite H1. cbn [negb andb].
    destruct (orig_key (w_orig x) (fst c)) eqn:E; [reflexivity|].
    destruct H2 as [H2|H2]; [destruct (n_ents (snd c)); [congruence|reflexivity]|].
    apply orig_was in H2. destruct H2 as [k H2]. unfold x in E. cbn [w_orig] in E. congruence. }
  inversion Hnd as [|? ? N1 N2]; subst.
  assert (N3 : NoDup (map fst (body ++ [(e, en)]))).
  { clear -N2. revert N2. generalize (map fst (body ++ [(e, en)])). intros v. induction ids; cbn; [auto|].
    intros H. inversion H; auto. }
  assert (HC : 0 < w_cap x) by exact Hcap.
  destruct (walk_body x d pid ids (n_level p) (n_next p2) (Some i0) HC body [] (Wst d ids (pid, p2) []) None (Some i0) (Some e) HB1)
    as (s & pre & I1 & _ & I3).
  { cbn. rewrite map_app in N3. now apply nodup_prefix in N3. }
  { exact HW. }
  { discriminate. }
  { intros l1 c l2 E E2. cbn. destruct l1 as [|c1 l1]; cbn in E.
    - rewrite (Hhead c l2 E) in E2. discriminate.
    - cbn. unfold live. cbn. rewrite (Hhead c1 _ E). discriminate. }
  { cbn. assumption. }
  { apply init_inv; reflexivity || assumption. }
  specialize (I3 (or_intror (or_intror eq_refl)) i0 e eq_refl eq_refl).
  cbn [app] in I1. destruct I1. destruct wi_kids as (cs & K1 & K2 & K3).
  assert (Hse : s_disk s e = Some en).
  { rewrite wi_same; [assumption|]. rewrite map_app in N3. cbn in N3. apply NoDup_remove_2 in N3. now rewrite app_nil_r in N3. }
  set (ln := set_edge (Some e) (set_next None (snd (s_cur s)))).
  assert (HWK : walk fuel x (Wst d ids (pid, p2) []) None i0 =
                Ok (on_cur (fun n => set_edge (Some e) (set_next None n)) s, true)).
  { replace fuel with (length body + S (fuel - S (length body))) by (clear - Hfuel; lia). rewrite I3.
    cbn [walk]. unfold rd. rewrite Hse. cbn [bind]. unfold rightmost in Hend. rewrite Hend, Hlive. reflexivity. }
  assert (Hcurleaf : n_leaf (snd (s_cur s)) = false).
  { apply (wi_kind (s_cur s)). unfold pars. apply in_or_app. right. now left. }
  assert (Hln : has_edge ln = true). { unfold has_edge, ln. cbn. now rewrite Hcurleaf. }
  set (ps0 := rev (s_done s) ++ [(fst (s_cur s), ln)]).
  assert (HidsN : pid :: ids = map fst ps0 ++ s_ids s).
  { rewrite wi_ids. unfold pars, ps0. now rewrite !map_app. }
  assert (Hids2 : s_ids s <> []).
  { intros E. rewrite E, app_nil_r in HidsN. apply (f_equal (@length nat)) in HidsN.
    unfold ps0 in HidsN. rewrite map_length, app_length, rev_length in HidsN. cbn in HidsN. lia. }
  assert (HNps : NoDup (pid :: ids)).
  { constructor; [intros X; apply N1; apply in_or_app; now left|now apply nodup_prefix in N2]. }
  (* the model's run *)
  assert (HRUN : exists D root' ids' rn,
     repair_links fuel cap d root ids pid p = Ok (Out D root' ids' true) /\
     D = match rev (s_done s) with
         | [] => put_all (s_disk s) [(fst (s_cur s), ln)]
         | first :: others => put_all (s_disk s) (others ++ [(fst (s_cur s), ln)] ++ rn ++ [first])
         end /\
     NoDup (map fst (rev (s_done s) ++ [(fst (s_cur s), ln)] ++ rn)) /\
     (forall q, In q rn -> In (fst q) (s_ids s)) /\
     (if Nat.eqb root pid && negb (is_nil (s_done s)) then
        exists r, hd_error (s_ids s) = Some r /\ root' = r /\
          rn = [(r, Nd false (S (n_level p)) (map (fun q => (last_key (snd q), fst q)) (rev (s_done s))) (Some (fst (s_cur s))) None false false)]
      else root' = root /\ rn = [])).
  { unfold repair_links. rewrite (sibling_ok d h p None Hsib) by lia. cbn [bind].
    rewrite andb_false_r.
    assert (E1 : match n_ents p with (_, c) :: _ => Some c | [] => if has_edge p then n_edge p else None end = Some i0) by exact Hfirst.
    rewrite E1. clear E1.
    assert (E2 : exists n0 l0, body ++ [(e, en)] = (i0, n0) :: l0).
    { destruct body as [|c l]; inversion Hchain; subst; cbn; eauto. }
    destruct E2 as (n0 & l0 & E2). rewrite E2 in Hchain.
    assert (E3 : rd d i0 = Ok n0). { inversion Hchain; subst. unfold rd. match goal with X : d i0 = _ |- _ => now rewrite X end. }
    rewrite E3. cbn [bind].
    match goal with |- context [bind ?t _] => assert (E4 : t = Ok (last_key p, None, p)) end.
    { destruct (is_nil (n_ents p)); [reflexivity|].
      assert (E5 : sibling_first_child fuel d p = Ok None).
      { unfold sibling_first_child. destruct (negb (n_leaf p) && negb (has_edge p)); [|reflexivity].
        rewrite (sibling_ok d h p None Hsib) by lia. reflexivity. }
      rewrite E5. cbn [bind].
      rewrite (scan_ok d None l0 i0 n0 (Some i0) None 0%Z false Hchain).
      - cbn [bind]. match goal with |- (if ?b then _ else _) = _ => destruct b end; [|reflexivity]. match goal with |- (if ?b then _ else _) = _ => destruct b end; reflexivity.
      - discriminate.
      - now left.
      - apply (f_equal (@length (nat * node))) in E2. rewrite app_length in E2. cbn in E2. lia. }
    rewrite E4. cbn [bind]. fold p2 x. rewrite HWK. cbn [bind].
    unfold on_cur. cbn [s_cur s_done s_ids s_disk fst snd]. fold ln.
    assert (E6 : fix_last (s_disk s) (last_key p) ln true = Ok (s_disk s, ln, true)).
    { unfold fix_last. rewrite Hln. cbn. now rewrite andb_false_r. }
    destruct (s_ids s) as [|r rs] eqn:Er; [congruence|].
    destruct (is_nil (s_done s)) eqn:En.
    - destruct (s_done s); [|discriminate]. cbn [negb andb rev app bind]. rewrite E6. cbn [bind].
      exists (put_all (s_disk s) [(fst (s_cur s), ln)]), root, (r :: rs), []. ands; try reflexivity.
      + cbn. repeat constructor. auto.
      + contradiction.
      + rewrite andb_false_r. auto.
    - assert (Hne : rev (s_done s) <> []).
      { destruct (s_done s); [discriminate|]. cbn. intros X. apply app_eq_nil in X. destruct X. discriminate. }
      cbn [negb]. rewrite !andb_true_l, andb_true_r.
      destruct (Nat.eqb root pid) eqn:Erp; cbn [andb].
      + rewrite (root_ents_ok (rev (s_done s)) (fst (s_cur s), ln)); [|intros q Hq|exact Hln].
        2: { destruct (wi_kind q) as (_ & _ & _ & X). { unfold pars. apply in_or_app. now left. }
             unfold has_edge. rewrite X. now rewrite andb_false_r. }
        cbn [bind fst]. rewrite E6. cbn [bind].
        set (rn := Nd false (S (n_level p)) (map (fun q => (last_key (snd q), fst q)) (rev (s_done s))) (Some (fst (s_cur s))) None false false).
        destruct (rev (s_done s)) as [|f o] eqn:Ed; [congruence|].
        eexists. exists r, rs, [(r, rn)]. split; [reflexivity|]. split; [reflexivity|]. ands.
        * assert (HE : map fst ((f :: o) ++ [(fst (s_cur s), ln)] ++ [(r, rn)]) ++ rs = pid :: ids).
          { rewrite HidsN. unfold ps0. try rewrite Ed. rewrite !map_app. cbn. now rewrite <- !app_assoc. }
          rewrite <- HE in HNps. exact (nodup_prefix _ _ HNps).
        * intros q [<-|[]]. now left.
        * exists r. auto.
      + cbn [bind]. rewrite E6. cbn [bind].
        destruct (rev (s_done s)) as [|f o] eqn:Ed; [congruence|].
        eexists. exists root, (r :: rs), []. split; [reflexivity|]. split; [reflexivity|]. ands.
        * rewrite app_nil_r. rewrite HidsN in HNps. unfold ps0 in HNps. try rewrite Ed in HNps. exact (nodup_prefix _ _ HNps).
        * contradiction.
        * reflexivity.
        * reflexivity. }
  destruct HRUN as (D & root' & ids' & rn & R1 & R2 & R3 & R4 & R5).
  destruct (write_row (s_disk s) (rev (s_done s)) (fst (s_cur s), ln) rn D R3 R2) as (W1 & W2 & W3).
  exists (Out D root' ids' true), (map mined ps0). cbn [o_ok o_disk o_root].
  assert (Hlink : linked ps0 None).
  { unfold ps0. clear - wi_link. unfold pars in wi_link.
    exact (linked_snoc _ _ (fst (s_cur s), ln) _ wi_link eq_refl). }
  assert (Hps0 : ps0 <> []). { unfold ps0. intros X. apply app_eq_nil in X. destruct X. discriminate. }
  assert (Hout : forall i, ~ In i (pid :: ids) -> D i = s_disk s i).
  { intros i Hi. apply W3. intros X. apply Hi. rewrite HidsN. rewrite app_assoc, map_app, in_app_iff in X.
    apply in_or_app. destruct X as [X|X]; [now left|]. right. apply in_map_iff in X. destruct X as (q & <- & X). auto. }
  assert (Hcs : forall c, In c (body ++ [(e, en)]) -> ~ In (fst c) (pid :: ids)).
  { intros c Hc [X|X].
    - apply N1. rewrite X. apply in_or_app. right. now apply in_map.
    - clear - N2 X Hc. assert (Hm := in_map fst _ _ Hc). revert N2 X Hm. generalize (map fst (body ++ [(e, en)])) (fst c).
      intros v y. induction ids as [|z l IH]; cbn; [tauto|]. intros H H1 H2. inversion H; subst.
      destruct H1 as [<-|H1]; [apply H4, in_or_app; now right|auto]. }
  ands.
  - exact R1.
  - reflexivity.
  - constructor.
    + apply (linked_chain D ps0 None Hlink Hps0). exact W1.
    + intros q Hq. apply in_map_iff in Hq. destruct Hq as (q' & <- & Hq). cbn. unfold ps0 in Hq.
      apply in_app_iff in Hq. destruct Hq as [Hq|[<-|[]]].
      * destruct (wi_kind q') as (A1 & A2 & A3 & A4). { unfold pars. apply in_or_app. now left. } auto.
      * destruct (wi_kind (s_cur s)) as (A1 & A2 & A3 & A4). { unfold pars. apply in_or_app. right. now left. } auto.
    + intros q Hq. apply in_map_iff in Hq. destruct Hq as (q' & <- & Hq). cbn. unfold ps0 in Hq.
      apply in_app_iff in Hq. destruct Hq as [Hq|[<-|[]]].
      * apply in_rev in Hq. rewrite (wi_full q' Hq). cbn. lia.
      * exact wi_cur.
    + intros q Hq. unfold ps0 in Hq. rewrite map_app in Hq. cbn [map] in Hq. rewrite removelast_last in Hq.
      apply in_map_iff in Hq. destruct Hq as (q' & <- & Hq). cbn. split.
      * apply in_rev in Hq. exact (wi_full q' Hq).
      * apply (wi_kind q'). unfold pars. apply in_or_app. now left.
    + intros l q E. unfold ps0 in E. rewrite map_app in E. cbn [map] in E. apply app_inj_tail in E. destruct E as [_ <-]. reflexivity.
    + rewrite flat_map_concat_map, map_map, <- flat_map_concat_map. unfold ps0. cbn.
      transitivity (flat_map (fun q => n_ents (snd q)) (pars s)).
      { unfold pars. rewrite !flat_map_app. reflexivity. }
      rewrite wi_ents. apply map_ext. intros c. now apply entry_key.
  - destruct ps0; [congruence|discriminate].
  - exists (s_ids s). rewrite HidsN, map_map. reflexivity.
  - exists (cs ++ [(e, en)]). split.
    + apply Forall2_snoc; [assumption|]. unfold relinked. auto 10.
    + apply chain_app. exists (Some e). split.
      * eapply chain_ext; [exact K2|]. intros c Hc. rewrite Hout; [eapply chain_in; eassumption|].
        assert (X : In (fst c) (map fst (live body))) by (rewrite (relinked_ids _ _ K1); now apply in_map).
        apply in_map_iff in X. destruct X as (y & <- & X). apply live_sub in X. apply Hcs. apply in_or_app. now left.
      * constructor; [|rewrite Hen; constructor]. rewrite Hout; [assumption|]. apply (Hcs (e, en)). apply in_or_app. right. now left.
  - intros i Hi. rewrite Hout. 2: { intros X. apply Hi. cbn in *. rewrite in_app_iff. tauto. }
    apply wi_same. intros X. apply Hi. right. apply in_or_app. now right.
  - assert (El : (1 <? length (map mined ps0)) = negb (is_nil (s_done s))).
    { rewrite map_length. unfold ps0. rewrite app_length, rev_length. clear. destruct (s_done s) as [|a l]; [reflexivity|]. cbn [is_nil negb]. apply Nat.ltb_lt. cbn. lia. }
    rewrite El. destruct (Nat.eqb root pid && negb (is_nil (s_done s))) eqn:Eq.
    + destruct R5 as (r & Hr & -> & Hrn). apply andb_true_iff in Eq. destruct Eq as [_ Eq].
      assert (Hne : rev (s_done s) <> []).
      { destruct (s_done s); [discriminate|]. cbn. intros X. apply app_eq_nil in X. destruct X. discriminate. }
      assert (Hin : In r (s_ids s)) by (destruct (s_ids s); [discriminate|injection Hr as ->; now left]).
      eexists. rewrite (W2 Hne (r, _)) by (rewrite Hrn; now left). cbn [snd].
      assert (HNr : ~ In r (map fst ps0)).
      { intros X. rewrite HidsN in HNps. clear - HNps X Hin. induction (map fst ps0); [contradiction|].
        cbn in HNps. inversion HNps; subst. destruct X as [->|X]; [apply H1, in_or_app; now right|auto]. }
      assert (Hrids : In r ids).
      { assert (X : In r (pid :: ids)) by (rewrite HidsN; apply in_or_app; now right).
        destruct X as [<-|X]; [|assumption]. exfalso. apply HNr.
        destruct ps0; [congruence|]. cbn in HidsN. injection HidsN as -> _. now left. }
      ands; try reflexivity; auto.
      * rewrite map_map. exact HNr.
      * cbn. unfold ps0. rewrite map_app. cbn [map]. rewrite removelast_last, map_map. reflexivity.
      * unfold ps0. rewrite map_app, rev_app_distr. reflexivity.
    + apply R5.
Qed.
End Edge.
