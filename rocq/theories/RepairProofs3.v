(** * Search through repaired nodes. *)
From Coq Require Import ZArith List Bool Arith Lia Sorted.
From Verif Require Import Base RepairModel RepairSpec RepairProofs RepairProofs2.
Import ListNotations.

Lemma route_app a b e k : route (a ++ b) e k = match route a None k with Some c => Some c | None => route b e k end.
Proof. induction a as [|[k' c] a IH]; cbn; [reflexivity|]. now destruct (Z.leb k k'). Qed.
Lemma last_key_snoc l k v lf lv ed nx dl mn : last_key (Nd lf lv (l ++ [(k, v)]) ed nx dl mn) = k.
Proof. unfold last_key. cbn. now rewrite rev_app_distr. Qed.
Lemma snoc_or_nil {A} (l : list A) : l = [] \/ exists r x, l = r ++ [x].
Proof. destruct l as [|a l] using rev_ind; eauto. Qed.

(** In a list of ascending keys something is found up to the last key. *)
Lemma asc_app a b : asc (a ++ b) <-> asc a /\ asc b /\ (forall x y, In x a -> In y b -> (fst x < fst y)%Z).
Proof.
  unfold asc. induction a as [|x a IH]; cbn; split.
  - intros H. ands; [constructor|assumption|tauto].
  - tauto.
  - intros H. inversion H; subst. apply IH in H2. destruct H2 as (H4 & H5 & H6).
    rewrite Forall_app in H3. destruct H3 as [H7 H8]. ands; [now constructor|assumption|].
    intros u v [<-|Hu] Hv; [|auto]. rewrite Forall_forall in H8. auto.
  - intros (H1 & H2 & H3). inversion H1; subst. constructor; [apply IH; ands; auto|].
    rewrite Forall_app. split; [assumption|]. rewrite Forall_forall. auto.
Qed.
Lemma route_hit n k : asc (n_ents n) -> n_ents n <> [] ->
  (route (n_ents n) None k = None <-> (last_key n < k)%Z).
Proof.
  intros HA HN. unfold last_key. destruct (snoc_or_nil (n_ents n)) as [E|(r & [kl v] & E)]; [congruence|].
  rewrite E in *. rewrite rev_app_distr. cbn. clear HN E.
  apply asc_app in HA. destruct HA as (H1 & _ & H3). rewrite route_app. cbn [route].
  assert (X : (kl < k)%Z -> route r None k = None).
  { intros Hk. clear H1. induction r as [|[k1 c1] r IH]; [reflexivity|]. cbn.
    assert (Y := H3 (k1, c1) (kl, v) (or_introl eq_refl) (or_introl eq_refl)). cbn in Y.
    destruct (Z.leb_spec k k1); [lia|]. apply IH. intros x y Hx Hy. apply H3; [now right|assumption]. }
  destruct (Z.leb_spec k kl); [|rewrite X by assumption; split; auto].
  split; [|lia]. destruct (route r None k); discriminate.
Qed.

(** Which node of a row, then which child. *)
Lemma route_row : forall ps q edge k,
  (forall u, In u ps -> n_ents (snd u) <> [] /\ n_edge (snd u) = None) -> n_edge (snd q) = edge ->
  asc (flat_map (fun u => n_ents (snd u)) (ps ++ [q])) ->
  exists u, In u (ps ++ [q]) /\
    route (map (fun u => (last_key (snd u), fst u)) ps) (Some (fst q)) k = Some (fst u) /\
    route (flat_map (fun u => n_ents (snd u)) (ps ++ [q])) edge k = route (n_ents (snd u)) (n_edge (snd u)) k.
Proof.
  induction ps as [|u ps IH]; intros q edge k HP HE HA.
  - exists q. cbn in *. rewrite app_nil_r. subst edge. auto.
  - cbn [app flat_map] in HA. apply asc_app in HA. destruct HA as (A1 & A2 & A3).
    destruct (HP u (or_introl eq_refl)) as [N1 N2].
    assert (HX := route_hit (snd u) k A1 N1).
    cbn [app flat_map map route]. rewrite route_app.
    destruct (Z.leb_spec k (last_key (snd u))) as [Hk|Hk].
    + exists u. ands; [now left|reflexivity|]. rewrite N2.
      destruct (route (n_ents (snd u)) None k) eqn:E; [reflexivity|]. exfalso. assert (Y := proj1 HX eq_refl). lia.
    + destruct (IH q edge k) as (v & V1 & V2 & V3); auto. { intros w Hw. apply HP. now right. }
      exists v. ands; [now right|assumption|]. rewrite (proj2 HX Hk). exact V3.
Qed.

(** The child found by the last keys of ascending leaves is the one that has the key. *)
Lemma find_miss (l : list (Z * nat)) k : (forall e, In e l -> fst e <> k) -> find (fun e => Z.eqb (fst e) k) l = None.
Proof.
  induction l as [|a l IH]; intros H; [reflexivity|]. cbn.
  destruct (Z.eqb_spec (fst a) k) as [E|E]; [exfalso; apply (H a); [now left|assumption]|]. apply IH. intros e He. apply H. now right.
Qed.
Lemma find_app {A} (f : A -> bool) a b : find f (a ++ b) = match find f a with Some x => Some x | None => find f b end.
Proof. induction a as [|x a IH]; cbn; [reflexivity|]. now destruct (f x). Qed.
Lemma find_leaf : forall cs c k,
  (forall u, In u cs -> n_ents (snd u) <> []) ->
  asc (flat_map (fun u => n_ents (snd u)) (cs ++ [c])) ->
  exists u, In u (cs ++ [c]) /\
    route (map (fun u => (last_key (snd u), fst u)) cs) (Some (fst c)) k = Some (fst u) /\
    value_in (cs ++ [c]) k = value_in [u] k.
Proof.
  induction cs as [|u cs IH]; intros c k HN HA.
  - exists c. cbn. auto.
  - cbn [app flat_map] in HA. apply asc_app in HA. destruct HA as (A1 & A2 & A3).
    cbn [map route]. assert (N1 := HN u (or_introl eq_refl)).
    destruct (snoc_or_nil (n_ents (snd u))) as [E|(r & [kl v] & E)]; [congruence|].
    assert (EL : last_key (snd u) = kl) by (unfold last_key; rewrite E, rev_app_distr; reflexivity).
    destruct (Z.leb_spec k (last_key (snd u))) as [Hk|Hk].
    + exists u. ands; [now left|reflexivity|]. unfold value_in. cbn [app flat_map]. rewrite app_nil_r, find_app.
      rewrite (find_miss (flat_map (fun u0 => n_ents (snd u0)) (cs ++ [c]))); [now destruct (find _ (n_ents (snd u)))|].
      intros x Hx Ex. assert (Y := A3 (kl, v) x). rewrite E in Y.
      specialize (Y ltac:(apply in_or_app; right; now left) Hx). cbn in Y. lia.
    + destruct (IH c k) as (w & V1 & V2 & V3); auto. { intros y Hy. apply HN. now right. }
      exists w. ands; [now right|assumption|]. rewrite <- V3. unfold value_in. cbn [app flat_map]. rewrite find_app.
      rewrite (find_miss (n_ents (snd u))); [reflexivity|]. intros x Hx Ex.
      rewrite E in Hx, A1. apply asc_app in A1. destruct A1 as (_ & _ & A4). apply in_app_iff in Hx.
      destruct Hx as [Hx|[<-|[]]]; [|cbn in *; lia]. specialize (A4 x (kl, v) Hx (or_introl eq_refl)). cbn in A4. lia.
Qed.

Lemma last_keys_asc : forall cs c, (forall u, In u cs -> n_ents (snd u) <> []) ->
  asc (flat_map (fun u => n_ents (snd u)) (cs ++ [c])) -> asc (map (fun u => (last_key (snd u), fst u)) cs).
Proof.
  induction cs as [|u cs IH]; intros c HN HA; [constructor|]. cbn [app flat_map map] in *.
  apply asc_app in HA. destruct HA as (A1 & A2 & A3).
  constructor; [apply (IH c); [intros w Hw; apply HN; now right|exact A2]|].
  apply Forall_forall. intros x Hx. apply in_map_iff in Hx. destruct Hx as (y & <- & Hy). cbn.
  assert (HK : forall w : nat * node, n_ents (snd w) <> [] -> exists e, In e (n_ents (snd w)) /\ fst e = last_key (snd w)).
  { intros w Hw. destruct (snoc_or_nil (n_ents (snd w))) as [E|(r & [kl v] & E)]; [congruence|].
    exists (kl, v). rewrite E. split; [apply in_or_app; right; now left|]. unfold last_key. now rewrite E, rev_app_distr. }
  destruct (HK u (HN u (or_introl eq_refl))) as (e1 & E1 & <-).
  destruct (HK y (HN y (or_intror Hy))) as (e2 & E2 & <-).
  apply A3; [assumption|]. apply in_flat_map. exists y. split; [apply in_or_app; now left|assumption].
Qed.

Lemma relinked_value l m k : Forall2 relinked l m -> value_in l k = value_in m k.
Proof.
  intros H. unfold value_in. replace (flat_map (fun c => n_ents (snd c)) m) with (flat_map (fun c => n_ents (snd c)) l); [reflexivity|].
  induction H as [|a b l m H1 H2 IH]; [reflexivity|]. cbn. rewrite IH. f_equal. apply H1.
Qed.
Lemma relinked_get l m u : Forall2 relinked l m -> In u l -> exists v, In v m /\ relinked u v.
Proof.
  intros H Hu. induction H as [|a b l m H1 H2 IH]; [contradiction|]. destruct Hu as [<-|Hu]; [exists b; cbn; auto|].
  destruct (IH Hu) as (v & V1 & V2). exists v. cbn. auto.
Qed.

Lemma search_ok cap D lvl ps body e en cs root k i0 :
  0 < cap ->
  row D cap lvl ps (map (fun u => (last_key (snd u), fst u)) body) (Some e) None -> ps <> [] ->
  Forall2 relinked (body ++ [(e, en)]) cs -> chain D (Some i0) cs None ->
  (forall u, In u body -> n_ents (snd u) <> []) ->
  asc (flat_map (fun u => n_ents (snd u)) (body ++ [(e, en)])) ->
  (if Nat.ltb 1 (length ps) then
     exists rn, D root = Some rn /\
       n_ents rn = map (fun q => (last_key (snd q), fst q)) (removelast ps) /\
       n_edge rn = option_map fst (head (rev ps))
   else root = match ps with q :: _ => fst q | [] => 0 end) ->
  lookup (if Nat.ltb 1 (length ps) then 2 else 1) D root k = value_in (body ++ [(e, en)]) k.
Proof.
  intros HC HR HN HS HCH HB HA HRT. destruct HR.
  destruct (snoc_or_nil ps) as [E|(pl & q & E)]; [congruence|]. subst ps.
  rewrite removelast_last in *.
  assert (HAE : asc (flat_map (fun u => n_ents (snd u)) (pl ++ [q]))).
  { rewrite row_ents. now apply last_keys_asc in HA. }
  destruct (route_row pl q (Some e) k) as (u & U1 & U2 & U3).
  { intros u Hu. destruct (row_full u Hu) as [H1 H2]. split; [|assumption]. intros X. rewrite X in H1. cbn in H1. lia. }
  { now apply (row_edge pl). }
  { exact HAE. }
  destruct (find_leaf body (e, en) k HB HA) as (c & C1 & C2 & C3).
  rewrite row_ents in U3. cbn [fst] in C2. rewrite C2 in U3.
  destruct (relinked_get _ _ _ HS C1) as (c' & V1 & V2).
  assert (HL1 : lookup 1 D (fst u) k = value_in (body ++ [(e, en)]) k).
  { cbn [lookup]. rewrite (chain_in _ _ _ _ u row_chain U1). rewrite <- U3.
    destruct V2 as (R1 & _ & _ & R4 & _). rewrite R1.
    rewrite (chain_in _ _ _ _ c' HCH V1). rewrite <- R4, C3. unfold value_in. cbn [flat_map]. now rewrite app_nil_r. }
  destruct pl as [|q0 pl].
  - cbn in HRT. cbn [length app Nat.ltb Nat.leb]. subst root. cbn in U1. destruct U1 as [<-|[]]. exact HL1.
  - assert (EL : 1 <? length ((q0 :: pl) ++ [q]) = true) by (apply Nat.ltb_lt; rewrite app_length; cbn; lia).
    rewrite EL in *. destruct HRT as (rn & T1 & T2 & T3).
    change (lookup 2 D root k) with
      (match D root with None => None | Some n => match route (n_ents n) (n_edge n) k with Some c => lookup 1 D c k | None => None end end).
    rewrite T1, T2, T3, rev_app_distr. cbn [rev app head option_map hd_error]. rewrite U2. exact HL1.
Qed.
