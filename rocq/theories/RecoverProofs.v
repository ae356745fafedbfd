(** * Proofs about the whole index recovery. *)
From Coq Require Import ZArith List Bool Arith Lia Permutation Sorted.
From Verif Require Import Base WbModel DagModel LeafCrashModel RecovModel RepairModel RepairSpec RecoverModel RecoverSpec.
Import ListNotations.

Section Stale.
Variable d : disk.
Notation gone := (dead d).
Fixpoint keepc (cur : option (Z * nat)) (l : list (Z * nat)) : list (Z * nat) :=
  match l with
  | [] => match cur with Some e => [e] | None => [] end
  | (k, c) :: r =>
      if gone c then keepc (match cur with Some (_, c0) => Some (k, c0) | None => None end) r
      else match cur with Some e => e :: keepc (Some (k, c)) r | None => keepc (Some (k, c)) r end
  end.
Lemma keepc_ne e l : keepc (Some e) l <> [].
Proof. revert e. induction l as [|[k c] l IH]; intros [k0 c0]; cbn; [discriminate|]. destruct (gone c); [apply IH|discriminate]. Qed.
Lemma slk_cons k e l : l <> [] -> set_last_key k (e :: l) = e :: set_last_key k l.
Proof.
  intros H. destruct (exists_last H) as (l' & [k1 v] & ->). unfold set_last_key. cbn [rev]. rewrite rev_app_distr. cbn.
  rewrite rev_app_distr, rev_involutive. reflexivity.
Qed.
Lemma slk_snoc k l k1 v : set_last_key k (l ++ [(k1, v)]) = l ++ [(k, v)].
Proof. unfold set_last_key. rewrite rev_app_distr. cbn. now rewrite rev_involutive. Qed.
Lemma slk_slk k k' l : set_last_key k (set_last_key k' l) = set_last_key k l.
Proof.
  destruct l as [|e l] using rev_ind; [reflexivity|]. destruct e as [a b]. now rewrite !slk_snoc.
Qed.
Lemma slk_snd k l : map snd (set_last_key k l) = map snd l.
Proof. destruct l as [|[a b] l _] using rev_ind; [reflexivity|]. rewrite slk_snoc, !map_app. reflexivity. Qed.
Lemma keepc_live cur l k c : gone c = false -> keepc cur (l ++ [(k, c)]) = keepc cur l ++ [(k, c)].
Proof.
  intros H. revert cur. induction l as [|[k1 c1] l IH]; intros [[k0 c0]|]; cbn; rewrite ?H; try reflexivity;
    destruct (gone c1); rewrite IH; reflexivity.
Qed.
Lemma keepc_dead cur l k c : gone c = true -> keepc cur (l ++ [(k, c)]) = set_last_key k (keepc cur l).
Proof.
  intros H. revert cur. induction l as [|[k1 c1] l IH]; intros [[k0 c0]|]; cbn; rewrite ?H; try reflexivity;
    destruct (gone c1); rewrite IH; try reflexivity. now rewrite slk_cons by apply keepc_ne.
Qed.
Definition olk (ov : option Z) (l : list (Z * nat)) := match ov with Some k => set_last_key k l | None => l end.

Lemma stale_ents_keepc l : (forall c, In c (map snd l) -> d c <> None) -> forall ov acc fr,
  stale_ents d (rev l) ov acc fr = Ok (olk ov (keepc None l) ++ acc, fr ++ filter gone (map snd (rev l))).
Proof.
  induction l as [|[k c] l IH] using rev_ind; intros Hd ov acc fr.
  - cbn. rewrite app_nil_r. destruct ov; reflexivity.
  - rewrite rev_app_distr. cbn [rev app map filter stale_ents snd].
    assert (IH' := IH (fun c' H => Hd c' ltac:(rewrite map_app; apply in_app_iff; now left))).
    destruct (d c) as [x|] eqn:Ex; [|exfalso; apply (Hd c); [rewrite map_app; apply in_app_iff; right; now left|assumption]].
    unfold rd. rewrite Ex. cbn [bind].
    assert (Eg : gone c = n_del x) by (unfold dead; now rewrite Ex). rewrite Eg. destruct (n_del x) eqn:E.
    + rewrite keepc_dead by congruence. destruct l as [|e l _] using rev_ind.
      * cbn. destruct ov; reflexivity.
      * rewrite rev_app_distr. cbn [rev app]. rewrite <- rev_unit at 1. rewrite IH'.
        rewrite <- app_assoc. cbn [app olk]. rewrite rev_unit. destruct ov; cbn [olk]; rewrite ?slk_slk; reflexivity.
    + rewrite keepc_live by congruence. rewrite IH'. cbn [olk].
      destruct ov; cbn [olk]; rewrite ?slk_snoc, <- app_assoc; reflexivity.
Qed.

Lemma keepc_snd cur l : map snd (keepc cur l) =
  (match cur with Some e => [snd e] | None => [] end) ++ filter (fun c => negb (gone c)) (map snd l).
Proof.
  revert cur. induction l as [|[k c] l IH]; intros [[k0 c0]|]; cbn; try reflexivity; destruct (gone c); cbn; rewrite IH; reflexivity.
Qed.

Definition elist (e : option nat) : list nat := match e with Some g => [g] | None => [] end.
Definition heir_c (cur : option nat) (x : list nat * list nat) : option nat :=
  match find (fun c => negb (gone c)) (rev (fst x)) with
  | Some c => Some c
  | None => match cur with Some c => Some c | None => find (fun c => negb (gone c)) (snd x) end
  end.
Lemma find_app {A} (f : A -> bool) l1 l2 : find f (l1 ++ l2) = match find f l1 with Some x => Some x | None => find f l2 end.
Proof. induction l1 as [|a l1 IH]; cbn; [reflexivity|]. destruct (f a); auto. Qed.

Lemma route_cur l edge k c : Forall (fun e => (k <= fst e)%Z) l -> forall k', (k <= k')%Z ->
  route (keepc (Some (k', c)) l) edge k = Some c.
Proof.
  induction 1 as [|[k3 c3] l H HF IH]; intros k' Hk; cbn.
  - now replace (k <=? k')%Z with true by lia.
  - destruct (gone c3); [apply IH; exact H|]. cbn. now replace (k <=? k')%Z with true by lia.
Qed.
Lemma route_first l edge k : match edge with Some g => gone g = false | None => True end ->
  Forall (fun e => (k <= fst e)%Z) l -> route (keepc None l) edge k = find (fun c => negb (gone c)) (map snd l ++ elist edge).
Proof.
  intros He. induction 1 as [|[k3 c3] l H HF IH]; cbn.
  - destruct edge; cbn; [now rewrite He|reflexivity].
  - destruct (gone c3); cbn; [exact IH|]. now apply route_cur.
Qed.

(** The edge is live (or there is none). *)
Lemma route_keepc l : asc l -> forall edge cur k,
  match edge with Some g => gone g = false | None => True end ->
  match cur with Some (k0, _) => (k0 < k)%Z | None => True end ->
  route (keepc cur l) edge k =
    match split_at l edge k with Some x => heir_c (option_map snd cur) x | None => None end.
Proof.
  unfold asc. induction l as [|[k1 c1] l IH]; intros HS edge cur k He Hc.
  - cbn. destruct cur as [[k0 c0]|]; cbn.
    + replace (k <=? k0)%Z with false by lia. destruct edge; cbn; [|reflexivity].
      unfold heir_c. cbn. now rewrite He.
    + destruct edge; cbn; [|reflexivity]. unfold heir_c. cbn. now rewrite He.
  - apply StronglySorted_inv in HS. destruct HS as [HS HF]. cbn [fst] in HF.
    cbn [split_at keepc]. destruct (k <=? k1)%Z eqn:Ek.
    + assert (HF' : Forall (fun e => (k <= fst e)%Z) l) by (eapply Forall_impl; [|exact HF]; cbn; intros; lia).
      unfold heir_c. cbn [fst snd rev app find]. destruct (gone c1) eqn:Eg; cbn [negb].
      * destruct cur as [[k0 c0]|]; cbn [option_map snd].
        -- apply route_cur; [exact HF'|lia].
        -- now apply route_first.
      * destruct cur as [[k0 c0]|]; cbn [route].
        -- replace (k <=? k0)%Z with false by lia. apply route_cur; [exact HF'|lia].
        -- apply route_cur; [exact HF'|lia].
    + assert (Hh : forall (cu : option nat) x, heir_c cu (c1 :: fst x, snd x) =
                 if gone c1 then heir_c cu x else heir_c (Some c1) x).
      { intros cu [a b]. unfold heir_c. cbn [fst snd rev]. rewrite find_app. cbn [find].
        destruct (find _ (rev a)); destruct (gone c1); reflexivity. }
      assert (Hs : match match split_at l edge k with Some (a, b) => Some (c1 :: a, b) | None => None end with
                   | Some x => heir_c (option_map snd cur) x | None => None end =
                   match split_at l edge k with Some x => heir_c (if gone c1 then option_map snd cur else Some c1) x | None => None end).
      { destruct (split_at l edge k) as [[a b]|]; [|reflexivity]. rewrite (Hh _ (a, b)). now destruct (gone c1). }
      rewrite Hs. clear Hs Hh. destruct (gone c1) eqn:Eg.
      * destruct cur as [[k0 c0]|]; rewrite IH; try assumption; try reflexivity. lia.
      * destruct cur as [[k0 c0]|]; cbn [route].
        -- replace (k <=? k0)%Z with false by lia. rewrite IH; try assumption; try reflexivity. lia.
        -- rewrite IH; try assumption; try reflexivity. lia.
Qed.

Lemma heir_c_none x : heir_c None x = heir d x.
Proof. reflexivity. Qed.
Lemma split_big l g k K : (k <= K)%Z -> split_at (l ++ [(K, g)]) None k = split_at l (Some g) k.
Proof.
  intros HK. induction l as [|[k1 c1] l IH]; cbn.
  - now replace (k <=? K)%Z with true by lia.
  - destruct (k <=? k1)%Z; [now rewrite map_app, app_nil_r|]. now rewrite IH.
Qed.
Lemma route_big l c K k : (k <= K)%Z -> route (l ++ [(K, c)]) None k = route l (Some c) k.
Proof.
  intros HK. induction l as [|[k1 c1] l IH]; cbn.
  - now replace (k <=? K)%Z with true by lia.
  - destruct (k <=? k1)%Z; auto.
Qed.
Lemma above (l : list (Z * nat)) k : exists K, (k <= K)%Z /\ Forall (fun e => (fst e < K)%Z) l.
Proof.
  induction l as [|[k1 c] l (K & H1 & H2)]; [exists k; split; [lia|constructor]|].
  exists (Z.max K (k1 + 1)). split; [lia|]. constructor; cbn; [lia|]. eapply Forall_impl; [|exact H2]. cbn. intros; lia.
Qed.
Lemma asc_snoc l K g : asc l -> Forall (fun e => (fst e < K)%Z) l -> asc (l ++ [(K, g)]).
Proof.
  unfold asc. induction 1 as [|e l HS IH HF]; intros HK; cbn; [repeat constructor|].
  apply Forall_cons_iff in HK. destruct HK as [K1 K2]. constructor; [auto|]. apply Forall_app. split; [assumption|].
  constructor; [exact K1|constructor].
Qed.
(** The edge is deleted. *)
Lemma route_dead_edge l g k : asc l -> gone g = true ->
  (match rev (keepc None l) with [] => None | (_, c) :: r => route (rev r) (Some c) k end) =
    match split_at l (Some g) k with Some x => heir d x | None => None end.
Proof.
  intros HA Hg. destruct (above l k) as (K & HK & HF).
  rewrite <- (split_big l g k K HK).
  assert (R := route_keepc (l ++ [(K, g)]) (asc_snoc _ _ _ HA HF) None None k I I). cbn [option_map] in R.
  unfold heir_c in R. unfold heir. rewrite <- R. rewrite keepc_dead by exact Hg.
  unfold set_last_key. destruct (rev (keepc None l)) as [|[k1 c] r]; [reflexivity|]. now rewrite route_big.
Qed.

Lemma filter_rev {A} (f : A -> bool) l : filter f (rev l) = rev (filter f l).
Proof. induction l as [|a l IH]; cbn; [reflexivity|]. rewrite filter_app, IH. cbn. destruct (f a); cbn; [reflexivity|now rewrite app_nil_r]. Qed.

Lemma keepc_id cur l : existsb gone (map snd l) = false ->
  keepc cur l = match cur with Some e => [e] | None => [] end ++ l.
Proof.
  revert cur. induction l as [|[k c] l IH]; intros cur H; cbn in *.
  - destruct cur; reflexivity.
  - destruct (gone c); [discriminate|]. rewrite IH by exact H. destruct cur as [[? ?]|]; reflexivity.
Qed.
Lemma filter_none {A} (f : A -> bool) l : existsb f l = false -> filter f l = [].
Proof. induction l as [|a l IH]; cbn; [reflexivity|]. destruct (f a); [discriminate|exact IH]. Qed.
Lemma filter_some {A} (f : A -> bool) l : existsb f l = true -> filter f l <> [].
Proof. intros H E. apply existsb_exists in H. destruct H as (x & H1 & H2). assert (X : In x (filter f l)) by now apply filter_In. rewrite E in X. destruct X. Qed.
Lemma filter_all {A} (f : A -> bool) l : existsb f l = false -> filter (fun c => negb (f c)) l = l.
Proof. induction l as [|a l IH]; cbn; [reflexivity|]. destruct (f a); [discriminate|]. intros H. cbn. now rewrite IH. Qed.

Lemma stale_tail pid p : n_leaf p = false -> asc (n_ents p) ->
  match n_edge p with Some g => gone g = false | None => True end ->
  let es := keepc None (n_ents p) in let fr := filter gone (map snd (n_ents p)) in
  exists p' fr', (match rev fr with [] => Ok (p, [])
                 | _ => if is_nil (n_ents (set_ents es p)) && negb (has_edge (set_ents es p)) then Ok (set_mine (set_del (set_ents es p)), rev fr ++ [pid])
                        else Ok (set_mine (set_ents es p), rev fr) end) = Ok (p', fr') /\
    (forall k, route (n_ents p') (n_edge p') k =
       match split_at (n_ents p) (n_edge p) k with Some x => heir d x | None => None end) /\
    children p' = filter (fun c => negb (gone c)) (children p) /\
    n_leaf p' = false /\ n_level p' = n_level p /\ n_next p' = n_next p /\
    (if existsb gone (children p) then
       n_mine p' = true /\ n_del p' = n_del p || is_nil (children p') /\
       Permutation fr' (filter gone (children p) ++ if is_nil (children p') then [pid] else [])
     else p' = p /\ fr' = []).
Proof.
  intros HL HA He es fr.
  assert (RT := fun k => route_keepc (n_ents p) HA (n_edge p) None k He I). fold es in RT. cbn [option_map] in RT.
  assert (Hs : map snd es = filter (fun c => negb (gone c)) (map snd (n_ents p))) by apply keepc_snd.
  assert (HeL : existsb gone (match n_edge p with Some e => [e] | None => [] end) = false) by (destruct (n_edge p); cbn; [now rewrite He|reflexivity]).
  assert (Efk : filter (fun c => negb (gone c)) (children p) = map snd es ++ match n_edge p with Some e => [e] | None => [] end).
  { unfold children. rewrite filter_app, Hs. f_equal. now apply filter_all. }
  assert (Efl : filter gone (children p) = fr) by (unfold children; rewrite filter_app, (filter_none _ _ HeL), app_nil_r; reflexivity).
  assert (Ech : existsb gone (children p) = existsb gone (map snd (n_ents p))) by (unfold children; rewrite existsb_app, HeL; apply orb_false_r).
  rewrite Efk, Efl, Ech. destruct (existsb gone (map snd (n_ents p))) eqn:Ex.
  - assert (Hf : rev fr <> []).
    { intros E. apply (filter_some _ _ Ex). fold fr. rewrite <- (rev_involutive fr), E. reflexivity. }
    destruct (rev fr) as [|f0 fs] eqn:Ef; [congruence|]. rewrite <- Ef. cbn [n_ents set_ents].
    assert (Hh : has_edge (set_ents es p) = match n_edge p with Some _ => true | None => false end) by (unfold has_edge; cbn; now rewrite HL).
    rewrite Hh.
    assert (HN : is_nil (map snd es ++ match n_edge p with Some e => [e] | None => [] end) =
                 is_nil es && negb match n_edge p with Some _ => true | None => false end)
      by (destruct es; cbn; [destruct (n_edge p)|]; reflexivity).
    destruct (is_nil es && negb match n_edge p with Some _ => true | None => false end) eqn:EN.
    + eexists _, _. split; [reflexivity|].
      assert (EC : children (set_mine (set_del (set_ents es p))) = map snd es ++ match n_edge p with Some e => [e] | None => [] end) by reflexivity.
      rewrite EC, HN. ands; auto; [cbn; now rewrite orb_true_r|]. apply Permutation_app_tail, Permutation_sym, Permutation_rev.
    + eexists _, _. split; [reflexivity|].
      assert (EC : children (set_mine (set_ents es p)) = map snd es ++ match n_edge p with Some e => [e] | None => [] end) by reflexivity.
      rewrite EC, HN, app_nil_r. ands; auto; [cbn; now rewrite orb_false_r|]. apply Permutation_sym, Permutation_rev.
  - assert (Hf : fr = []) by (now apply filter_none). rewrite Hf. cbn [rev]. eexists _, _. split; [reflexivity|].
    assert (Ee : es = n_ents p) by (unfold es; rewrite keepc_id by exact Ex; reflexivity).
    rewrite Ee in RT |- *. ands; auto.
Qed.

Lemma stale_links_ok pid p : n_leaf p = false -> asc (n_ents p) -> (forall c, In c (children p) -> d c <> None) ->
  exists p' fr, stale_links d pid p = Ok (p', fr) /\
    (forall k, route (n_ents p') (n_edge p') k =
       match split_at (n_ents p) (n_edge p) k with Some x => heir d x | None => None end) /\
    children p' = filter (fun c => negb (gone c)) (children p) /\
    n_leaf p' = false /\ n_level p' = n_level p /\ n_next p' = n_next p /\
    (if existsb gone (children p) then
       n_mine p' = true /\ n_del p' = n_del p || is_nil (children p') /\
       Permutation fr (filter gone (children p) ++ if is_nil (children p') then [pid] else [])
     else p' = p /\ fr = []).
Proof.
  intros HL HA Hd.
  assert (Hd1 : forall c, In c (map snd (n_ents p)) -> d c <> None) by (intros c H; apply Hd; apply in_app_iff; now left).
  unfold stale_links. rewrite stale_ents_keepc by exact Hd1. cbn [bind olk]. rewrite !app_nil_r, app_nil_l, map_rev, filter_rev.
  set (es := keepc None (n_ents p)). set (fr := filter gone (map snd (n_ents p))).
  assert (Hs : map snd es = filter (fun c => negb (gone c)) (map snd (n_ents p))) by apply keepc_snd.
  cbn [n_edge set_ents].
  destruct (n_edge p) as [g|] eqn:Eg.
  - assert (HE : has_edge (set_ents es p) = true) by (unfold has_edge; cbn; now rewrite HL, Eg).
    rewrite HE. unfold rd. destruct (d g) as [x|] eqn:Ex; [|exfalso; apply (Hd g); [unfold children; rewrite Eg; apply in_app_iff; right; now left|assumption]].
    cbn [bind]. assert (Egg : gone g = n_del x) by (unfold dead; now rewrite Ex).
    assert (Ech : existsb gone (children p) = existsb gone (map snd (n_ents p)) || n_del x)
      by (unfold children; rewrite Eg, existsb_app; cbn; now rewrite Egg, orb_false_r).
    assert (Efl : filter gone (children p) = fr ++ if n_del x then [g] else [])
      by (unfold children; rewrite Eg, filter_app; cbn; now rewrite Egg).
    assert (Efk : filter (fun c => negb (gone c)) (children p) = map snd es ++ if n_del x then [] else [g])
      by (unfold children; rewrite Eg, filter_app, Hs; cbn; rewrite Egg; now destruct (n_del x)).
    destruct (n_del x) eqn:Exd.
    + rewrite Ech, Efl, Efk, orb_true_r, app_nil_r.
      assert (RT := fun k => route_dead_edge (n_ents p) g k HA Egg). fold es in RT.
      destruct (rev es) as [|[k1 c] r] eqn:Er.
      * assert (Ee : es = []) by (rewrite <- (rev_involutive es), Er; reflexivity). rewrite Ee in *. cbn [bind].
        destruct (rev fr ++ [g]) eqn:Ef; [destruct (rev fr); discriminate|]. rewrite <- Ef.
        assert (Hh : has_edge (set_edge None (set_ents [] p)) = false) by (unfold has_edge; cbn; apply andb_false_r).
        cbn [n_ents set_edge set_ents is_nil]. rewrite Hh. cbn [andb negb].
        eexists _, _. split; [reflexivity|]. cbn [n_ents n_edge n_leaf n_level n_next n_mine n_del set_mine set_del set_edge set_ents].
        unfold children. cbn [n_ents n_edge set_mine set_del set_edge set_ents map app is_nil].
        ands; auto; [now rewrite orb_true_r|]. apply Permutation_app_tail. apply Permutation_app_tail. apply Permutation_sym, Permutation_rev.
      * assert (Ee : es = rev r ++ [(k1, c)]) by (rewrite <- (rev_involutive es), Er; reflexivity). cbn [bind].
        destruct (rev fr ++ [g]) eqn:Ef; [destruct (rev fr); discriminate|]. rewrite <- Ef.
        assert (Hh : has_edge (set_edge (Some c) (set_ents (rev r) (set_ents es p))) = true) by (unfold has_edge; cbn; now rewrite HL).
        rewrite Hh. rewrite andb_false_r.
        eexists _, _. split; [reflexivity|]. cbn [n_ents n_edge n_leaf n_level n_next n_mine n_del set_mine set_del set_edge set_ents].
        assert (EC : children (set_mine (set_edge (Some c) (set_ents (rev r) (set_ents es p)))) = map snd es).
        { unfold children. cbn. rewrite Ee, map_app. reflexivity. }
        rewrite EC. assert (EN : is_nil (map snd es) = false) by (rewrite Ee, map_app; destruct (map snd (rev r)); reflexivity).
        rewrite EN, orb_false_r, app_nil_r. ands; auto. apply Permutation_app_tail. apply Permutation_sym, Permutation_rev.
    + clear Ech Efl Efk. cbn [bind]. assert (T : match n_edge p with Some g => gone g = false | None => True end) by now rewrite Eg.
    apply (stale_tail pid p HL HA) in T. rewrite Eg in T. exact T.
  - cbn [bind]. assert (T : match n_edge p with Some g => gone g = false | None => True end) by now rewrite Eg.
    apply (stale_tail pid p HL HA) in T. rewrite Eg in T. exact T.
Qed.
End Stale.

(** ** What is freed. *)
Definition is_free (e : revent) : bool := match e with Free _ => true | _ => false end.
Fixpoint frees_of (l : list revent) : list nat :=
  match l with [] => [] | Free b :: r => b :: frees_of r | _ :: r => frees_of r end.
Lemma frees_app a b : frees_of (a ++ b) = frees_of a ++ frees_of b.
Proof. induction a as [|[] a IH]; cbn; rewrite ?IH; reflexivity. Qed.
Lemma frees_map l : frees_of (map Free l) = l.
Proof. induction l as [|a l IH]; cbn; congruence. Qed.
Lemma frees_pruned l : frees_of (map Pruned l) = [].
Proof. induction l as [|a l IH]; cbn; congruence. Qed.

Lemma update_up_log n s b s' : update_up n s b = Some s' -> q_log s' = q_log s.
Proof.
  revert s b. induction n as [|n IH]; intros s b H; cbn in H; destruct (negb (q_wait s b =? 0)%Z); try congruence;
    destruct (q_up s b); try congruence. now apply IH in H.
Qed.
Lemma prune_log im d s b s' : prune im d s b = Some s' -> q_log s' = q_log s.
Proof.
  unfold prune. destruct (q_up s b) as [u|]; [|discriminate]. destruct (negb (q_wait s u =? 0)%Z); [congruence|].
  destruct (update_up (length (d_ids d)) s u) as [s1|] eqn:E; [|discriminate]. apply update_up_log in E. intros H.
  assert (X : q_log s' = q_log (add_pruned s1 u)).
  { destruct (q_up s u) as [x|]; [|congruence]. destruct (negb (im x) && (q_wait (add_pruned s1 u) x =? 0)%Z); injection H as <-; reflexivity. }
  rewrite X. exact E.
Qed.
Lemma first_log im d ld order : forall s s', RecovModel.first im d ld s order = Some s' -> q_log s' = q_log s.
Proof.
  induction order as [|b l IH]; intros s s' H; cbn in H; [congruence|].
  destruct (first1 im d ld s b) as [s1|] eqn:E; [|discriminate]. apply IH in H. rewrite H. clear H IH.
  unfold first1 in E. destruct (rb_freed (d_buf d b)).
  - destruct (was_committed im d ld _ _ _).
    + destruct (q_up s b); [|discriminate]. injection E as <-. reflexivity.
    + destruct (rb_new (d_buf d b)).
      * destruct (q_up (add_del s b) b); [|injection E as <-; reflexivity].
        destruct (prune im d _ b) as [s2|] eqn:E2; [|discriminate]. injection E as <-. apply prune_log in E2. exact E2.
      * destruct (q_up (add_kept s b) b); [|injection E as <-; reflexivity].
        destruct (prune im d _ b) as [s2|] eqn:E2; [|discriminate]. injection E as <-. apply prune_log in E2. exact E2.
  - destruct (rb_new (d_buf d b)); [|congruence].
    destruct (was_committed im d ld _ _ _ && was_committed im d ld _ _ _).
    + destruct (q_up s b); [|discriminate]. injection E as <-. reflexivity.
    + destruct (q_up s b); [|discriminate]. apply prune_log in E. exact E.
Qed.
Lemma recover_buf_log im d ld n : forall s b s', recover_buf im d ld n s b = Some s' -> frees_of (q_log s') = frees_of (q_log s).
Proof.
  induction n as [|n IH]; intros s b s' H; cbn [recover_buf] in H; destruct (negb (q_wait (dec s b) b =? 0)%Z);
    try (injection H as <-; reflexivity).
  all: match type of H with match q_up (add_log _ ?e) _ with _ => _ end = _ => set (ev := e) in H; assert (HF : is_free ev = false) end.
  all: try (subst ev; destruct (was_committed im d ld _ _ _); [destruct (q_up (dec s b) b); [destruct (im _)|]|]; reflexivity).
  all: assert (HL : frees_of (q_log (add_log (dec s b) ev)) = frees_of (q_log s))
    by (cbn [q_log add_log]; rewrite frees_app; destruct ev; try discriminate HF; cbn; apply app_nil_r).
  - destruct (q_up _ b); [discriminate|]. injection H as <-. exact HL.
  - destruct (q_up _ b); [|injection H as <-; exact HL]. apply IH in H. congruence.
Qed.
Lemma pending_log im d ld l : forall s s', pending im d ld s l = Some s' -> frees_of (q_log s') = frees_of (q_log s).
Proof.
  induction l as [|b l IH]; intros s s' H; cbn in H; [congruence|].
  destruct (recover_buf im d ld _ s b) as [s1|] eqn:E; [|discriminate]. apply recover_buf_log in E. apply IH in H. congruence.
Qed.
Lemma walk_frees im d ld order q : RecovModel.walk im d ld order = Some q -> frees_of (q_log q) = q_del q.
Proof.
  unfold RecovModel.walk. destruct (RecovModel.first im d ld _ order) as [s1|] eqn:E1; [|discriminate].
  destruct (pending im d ld s1 (q_pend s1)) as [s2|] eqn:E2; [|discriminate]. intros H. injection H as <-. cbn [q_log q_del].
  apply first_log in E1. apply pending_log in E2. rewrite !frees_app, frees_pruned, frees_map, E2, E1. reflexivity.
Qed.

Section Frees.
Variable fuel cap : nat.
Variable ismeta : nat -> bool.
Variable d : dag.
Variable landed : nat -> bool.
Variable q : rst.

Lemma repair_node_frees s b s' : repair_node fuel cap ismeta q s b = Ok s' -> t_frees s' = t_frees s.
Proof.
  unfold repair_node. destruct (ismeta b); [congruence|]. destruct (rd (t_buf s) b) as [p| |]; cbn [bind]; try discriminate.
  destruct (n_leaf p); cbn [bind].
  - intros H. injection H as <-. destruct (match q_up q b with Some u => ismeta u | None => false end); reflexivity.
  - destruct (repair_links fuel cap (t_disk s) (t_sb s) (t_ids s) b p); cbn [bind]; try discriminate.
    intros H. injection H as <-. destruct (match q_up q b with Some u => ismeta u | None => false end); reflexivity.
Qed.
Lemma repair_all_frees l : forall s s', repair_all fuel cap ismeta q s l = Ok s' -> t_frees s' = t_frees s.
Proof.
  induction l as [|b l IH]; intros s s' H; cbn in H; [congruence|].
  destruct (repair_node fuel cap ismeta q s b) as [s1| |] eqn:E; cbn in H; try discriminate.
  apply repair_node_frees in E. apply IH in H. congruence.
Qed.
Lemma events_frees l : forall s s', events fuel cap ismeta q s l = Good s' -> t_frees s' = t_frees s ++ frees_of l.
Proof.
  induction l as [|e l IH]; intros s s' H; cbn [events] in H.
  - injection H as <-. cbn. now rewrite app_nil_r.
  - destruct (event fuel cap ismeta q s e) as [s1| |] eqn:E; try discriminate. apply IH in H. rewrite H. clear H IH.
    destruct e as [b|b|b|b|b]; cbn [event frees_of] in E |- *.
    + destruct (repair_node fuel cap ismeta q s b) eqn:E1; cbn in E; try discriminate. injection E as <-. now rewrite (repair_node_frees _ _ _ E1).
    + injection E as <-. reflexivity.
    + unfold repair_root in E. destruct (Nat.eqb (t_sb s) b); [|injection E as <-; reflexivity].
      destruct (t_buf s b) as [n|]; [|discriminate]. destruct (has_edge n); [discriminate|]. injection E as <-. reflexivity.
    + destruct (repair_node fuel cap ismeta q s b) eqn:E1; cbn in E; try discriminate. injection E as <-. now rewrite (repair_node_frees _ _ _ E1).
    + injection E as <-. cbn. now rewrite <- app_assoc.
Qed.

Notation is_fate := (is_fate d landed).
Lemma fate_ex f g b : is_fate f b = true -> is_fate g b = true -> f = g \/ f = Untouched \/ f = Committed.
Proof. unfold RecoverModel.is_fate. destruct f, g, (decide d landed b); auto; discriminate. Qed.
Lemma mark_frees l : forall s, t_frees (mark d landed s l) = t_frees s.
Proof.
  induction l as [|b l IH]; intros s; cbn; [reflexivity|]. fold (mark d landed (mark1 d landed s b) l). rewrite IH.
  unfold mark1. destruct (t_buf s b); [|reflexivity]. destruct (is_fate Deleted b), (is_fate Restored b); reflexivity.
Qed.
(** What [mark] leaves of a node: the entries, always; and the deletion mark of a node not deleted. *)
Lemma mark_same l : forall s,
  (forall b n, t_buf (mark d landed s l) b = Some n -> exists n0, t_buf s b = Some n0 /\ n_ents n = n_ents n0 /\ n_edge n = n_edge n0 /\
     n_level n = n_level n0 /\ (In b l -> is_fate Restored b = true -> n_del n = false) /\ (n_del n0 = false -> is_fate Deleted b = false -> n_del n = false)) /\
  (forall c, is_fate Deleted c = false -> t_disk (mark d landed s l) c = t_disk s c).
Proof.
  induction l as [|a l IH]; intros s; cbn.
  - split; [|auto]. intros b n H. exists n. ands; auto. intros [].
  - fold (mark d landed (mark1 d landed s a) l). destruct (IH (mark1 d landed s a)) as [I1 I2]. split.
    + intros b n H. destruct (I1 b n H) as (n1 & A1 & A2 & A3 & A4 & A5 & A6). clear I1 I2 IH H.
      assert (X : exists n0, t_buf s b = Some n0 /\ n_ents n1 = n_ents n0 /\ n_edge n1 = n_edge n0 /\ n_level n1 = n_level n0 /\
        (a = b -> is_fate Restored b = true -> n_del n1 = false) /\ (n_del n0 = false -> is_fate Deleted b = false -> n_del n1 = false)).
      { unfold mark1 in A1. destruct (t_buf s a) as [na|] eqn:Ea.
        - destruct (is_fate Deleted a) eqn:E1; [|destruct (is_fate Restored a) eqn:E2]; cbn in A1; unfold dput in A1.
          + destruct (Nat.eqb b a) eqn:Eb.
            * apply Nat.eqb_eq in Eb. subst b. injection A1 as <-. exists na. ands; auto; [|intros; congruence].
              intros _ H. destruct (fate_ex Deleted Restored a E1 H) as [X|[X|X]]; discriminate X.
            * exists n1. ands; auto. intros ->. now rewrite Nat.eqb_refl in Eb.
          + destruct (Nat.eqb b a) eqn:Eb.
            * apply Nat.eqb_eq in Eb. subst b. injection A1 as <-. exists na. ands; auto.
            * exists n1. ands; auto. intros ->. now rewrite Nat.eqb_refl in Eb.
          + exists n1. ands; auto. intros ->. congruence.
        - exists n1. ands; auto. intros ->. congruence. }
      destruct X as (n0 & B1 & B2 & B3 & B4 & B5 & B6). exists n0. ands; try congruence.
      * intros [H|H] HR; [|auto]. apply A6; [auto|]. destruct (is_fate Deleted b) eqn:E; [|reflexivity].
        destruct (fate_ex Deleted Restored b E HR) as [X|[X|X]]; discriminate X.
      * intros H1 H2. apply A6; auto.
    + intros c Hc. rewrite I2 by exact Hc. unfold mark1. destruct (t_buf s a); [|reflexivity].
      destruct (is_fate Deleted a) eqn:E1; [|destruct (is_fate Restored a); reflexivity].
      cbn. unfold dput. destruct (Nat.eqb c a) eqn:Eb; [|reflexivity]. apply Nat.eqb_eq in Eb. subst c. change (is_fate Deleted a = false) in Hc. congruence.
Qed.
Lemma stale_ents_none m l : forall ov acc fr x, existsb (dead m) (map snd l) = false ->
  stale_ents m l ov acc fr = Ok x -> exists es, x = (es, fr) /\ (ov = None -> es = rev l ++ acc).
Proof.
  induction l as [|[k c] l IH]; intros ov acc fr x H E; cbn in *; [injection E as <-; eauto|].
  apply orb_false_iff in H. destruct H as [H1 H2]. unfold rd in E. destruct (m c) as [n|] eqn:En; [|discriminate]. cbn [bind] in E.
  assert (Hn : n_del n = false) by (unfold dead in H1; now rewrite En in H1). rewrite Hn in E.
  destruct (IH _ _ _ _ H2 E) as (es & -> & He). exists es. split; [reflexivity|]. intros ->. rewrite He by reflexivity. now rewrite <- app_assoc.
Qed.
Lemma stale_links_none m b p x : existsb (dead m) (children p) = false -> stale_links m b p = Ok x -> x = (p, []).
Proof.
  unfold stale_links, children. rewrite existsb_app. intros H. apply orb_false_iff in H. destruct H as [H1 H2].
  destruct (stale_ents m (rev (n_ents p)) None [] []) as [y| |] eqn:E; cbn [bind]; try discriminate.
  assert (H1' : existsb (dead m) (map snd (rev (n_ents p))) = false).
  { destruct (existsb (dead m) (map snd (rev (n_ents p)))) eqn:Z; [|reflexivity]. apply existsb_exists in Z. destruct Z as (z & Z1 & Z2).
    rewrite map_rev in Z1. apply in_rev in Z1. rewrite <- H1. symmetry. apply existsb_exists. eauto. }
  destruct (stale_ents_none m _ _ _ _ _ H1' E) as (es & -> & _). cbn [n_edge set_ents].
  destruct (n_edge p) as [g|]; [|cbn [bind]; congruence].
  destruct (has_edge (set_ents es p)); [|cbn [bind]; congruence]. unfold rd. destruct (m g) as [n|] eqn:En; cbn [bind]; [|discriminate].
  cbn in H2. unfold dead in H2. rewrite En, orb_false_r in H2. rewrite H2. cbn [bind]. congruence.
Qed.
Lemma stale_all_none m rs : forall s gone kept r,
  (forall b n, In b rs -> t_buf s b = Some n -> existsb (dead m) (children n) = false /\ n_del n = false) -> t_disk s = m ->
  stale_all s rs gone kept = Ok r -> t_frees (fst (fst r)) = t_frees s /\ snd (fst r) = gone.
Proof.
  induction rs as [|b rs IH]; intros s gone kept r H Hm E; cbn in E; [injection E as <-; auto|].
  unfold rd in E. destruct (t_buf s b) as [p|] eqn:Ep; [|discriminate]. cbn [bind] in E.
  destruct (H b p (or_introl eq_refl) Ep) as [H1 H2].
  destruct (stale_links (t_disk s) b p) as [x| |] eqn:Ex; cbn [bind] in E; try discriminate. rewrite Hm in Ex.
  apply stale_links_none in Ex; [|exact H1]. subst x. rewrite H2 in E. apply IH in E; [|clear E IH|exact Hm].
  - cbn in E. now rewrite app_nil_r in E.
  - intros b' n Hb. cbn. unfold dput. destruct (Nat.eqb b' b); [|apply H; now right]. intros X. injection X as <-. auto.
Qed.
Lemma by_level_in lv m l b : In b (by_level lv m l) -> In b l /\ exists n, m b = Some n /\ n_level n <> 0.
Proof.
  induction lv as [|v IH]; cbn; [tauto|]. rewrite in_app_iff. intros [H|H]; [auto|]. apply filter_In in H. destruct H as [H1 H2].
  split; [exact H1|]. destruct (m b) as [n|]; [|discriminate]. exists n. split; [reflexivity|]. lia.
Qed.
Lemma recover_frees m sb ids order top t : RecovModel.walk ismeta d landed order = Some q ->
  recover fuel cap ismeta d landed q m sb ids order top = Good t ->
  (forall b n c, In b order -> decide d landed b = Restored -> m b = Some n -> n_level n <> 0 -> In c (children n) ->
     decide d landed c <> Deleted /\ dead m c = false) ->
  t_frees t = q_del q.
Proof.
  intros HW HR HC. unfold recover in HR.
  set (s0 := mark d landed (Tst m m sb sb ids []) order) in HR.
  destruct (mark_same order (Tst m m sb sb ids [])) as [M1 M2]. fold s0 in M1, M2. cbn [t_buf t_disk] in M1, M2.
  assert (HS : forall b n, In b (by_level top m (filter (is_fate Restored) order)) -> t_buf s0 b = Some n ->
    existsb (dead (t_disk s0)) (children n) = false /\ n_del n = false).
  { clear HR.
  intros b n Hb Hn. apply by_level_in in Hb. destruct Hb as [Hb (n0' & Hm & Hl)]. apply filter_In in Hb. destruct Hb as [Hb1 Hb2].
  destruct (M1 b n Hn) as (n0 & A1 & A2 & A3 & A4 & A5 & A6). rewrite Hm in A1. injection A1 as ->.
  split; [|auto]. destruct (existsb (dead (t_disk s0)) (children n)) eqn:E; [|reflexivity]. exfalso.
  apply existsb_exists in E. destruct E as (c & C1 & C2).
  assert (EC : children n = children n0) by (unfold children; now rewrite A2, A3). rewrite EC in C1.
  assert (ER : decide d landed b = Restored) by (unfold RecoverModel.is_fate in Hb2; destruct (decide d landed b); try discriminate; reflexivity).
  destruct (HC b n0 c Hb1 ER Hm Hl C1) as [D1 D2].
  assert (FD : is_fate Deleted c = false) by (unfold RecoverModel.is_fate; destruct (decide d landed c); auto; congruence).
  unfold dead in C2. rewrite M2 in C2 by exact FD. unfold dead in D2. congruence. }
  destruct (stale_all s0 _ [] []) as [[[s1 gone] kept]| |] eqn:E1; try discriminate.
  destruct (stale_all_none (t_disk s0) _ _ _ _ _ HS eq_refl E1) as [F1 F2]. cbn [fst snd] in F1, F2. subst gone.
  destruct (repair_all fuel cap ismeta q s1 kept) as [s2| |] eqn:E2; try discriminate. apply repair_all_frees in E2.
  destruct (events fuel cap ismeta q s2 (q_log q ++ map Free [])) as [s3| |] eqn:E3; try discriminate. apply events_frees in E3.
  assert (X : s3 = t) by (destruct (is_nil (q_pend q) || _) in HR; [now injection HR|discriminate]). subst s3.
  rewrite E3, E2, F1. unfold s0. rewrite mark_frees. cbn [t_frees map app]. rewrite app_nil_r. eapply walk_frees. exact HW.
Qed.
End Frees.
