(** What a changed leaf, a split and a merge do to the tree. *)
From Coq Require Import ZArith List Bool Arith Lia.
From Verif Require Import Base ConcBtModel ConcBtSpec ConcBtLists ConcBtSpread.
Import ListNotations.
Local Open Scope Z_scope.

Notation H s := (lvl (h s (root s))).
Notation rch s := (reach (h s) (root s)).
Notation wlk s := (walk (h s) (root s)).

Section Wf.
Variables (s : st) (Hwf : wf s).

Lemma reach_le : forall d n, rch s d n -> (d <= H s)%nat.
Proof. intros d n R0. pose proof (wf_lvl _ Hwf _ _ R0). lia. Qed.
Lemma reach_uniq : forall d d' n, rch s d n -> rch s d' n -> d = d'.
Proof. intros d d' n A B. pose proof (wf_lvl _ Hwf _ _ A). pose proof (wf_lvl _ Hwf _ _ B). lia. Qed.
Lemma walk_reach : forall k d n, wlk s k d = Some n -> (d <= H s)%nat -> rch s d n.
Proof.
  intros k. induction d as [|d IH]; intros n E L; cbn in E; [injection E as <-; constructor|].
  destruct (wlk s k d) as [p|] eqn:Ep; [|discriminate].
  destruct (pick k (ents (h s p))) as [[b c]|] eqn:Ec; [|discriminate]. injection E as <-.
  specialize (IH p eq_refl ltac:(lia)). econstructor; [exact IH| |eapply pick_in; exact Ec].
  pose proof (wf_lvl _ Hwf _ _ IH). lia.
Qed.
Lemma walk_total : forall k d, (d <= H s)%nat ->
  exists n, wlk s k d = Some n /\ (lvl (h s n) <> O -> ents (h s n) <> [] /\ ble k (lastb (ents (h s n))) = true).
Proof.
  intros k. induction d as [|d IH]; intros L.
  - exists (root s). split; [reflexivity|]. intros N. split; [eapply wf_some; [eassumption|constructor|assumption]|].
    rewrite (wf_root _ Hwf N). reflexivity.
  - destruct IH as (p & Ep & Hp); [lia|]. pose proof (walk_reach _ _ _ Ep ltac:(lia)) as Rp.
    pose proof (wf_lvl _ Hwf _ _ Rp) as Lp. destruct Hp as [Hp1 Hp2]; [lia|].
    destruct (pick k (ents (h s p))) as [[b c]|] eqn:Ec.
    + exists c. split; [cbn; rewrite Ep, Ec; reflexivity|]. intros N.
      pose proof (pick_in _ _ _ Ec) as Hi.
      assert (Rc : rch s (S d) c) by (econstructor; [exact Rp|lia|exact Hi]).
      split; [eapply wf_some; eassumption|].
      rewrite (wf_last _ Hwf d p b c); auto; [|lia]. exact (pick_ble _ _ _ Ec).
    + exfalso. revert Ec. apply asc_last_ble; auto. eapply wf_asc; eassumption.
Qed.
Lemma pick_total : forall k d n, wlk s k d = Some n -> (d <= H s)%nat -> lvl (h s n) <> O ->
  exists b c, pick k (ents (h s n)) = Some (b, c) /\ wlk s k (S d) = Some c.
Proof.
  intros k d n E L N. destruct (walk_total k d L) as (n' & E' & P). rewrite E in E'. injection E' as <-.
  destruct (P N) as [P1 P2]. destruct (pick k (ents (h s n))) as [[b c]|] eqn:Ec.
  - exists b, c. split; [reflexivity|]. cbn. now rewrite E, Ec.
  - exfalso. revert Ec. apply asc_last_ble; auto. eapply wf_asc; [eassumption|]. now apply (walk_reach k d).
Qed.
Lemma child_key : forall d n b c k v, rch s d n -> lvl (h s n) <> O -> In (b, c) (ents (h s n)) -> In (Some k, v) (ents (h s c)) ->
  wlk s k d = Some n /\ pick k (ents (h s n)) = Some (b, c).
Proof.
  intros d n b c k v Rn N Hi Hk.
  assert (Rc : rch s (S d) c) by (econstructor; eassumption).
  pose proof (wf_key _ Hwf _ _ _ _ Rc Hk) as E. cbn in E.
  destruct (wlk s k d) as [p|] eqn:Ep; [|discriminate].
  destruct (pick k (ents (h s p))) as [[b' c']|] eqn:Ec; [|discriminate]. injection E as ->.
  pose proof (walk_reach _ _ _ Ep (reach_le _ _ Rn)) as Rp.
  pose proof (pick_in _ _ _ Ec) as Hi'.
  assert (p = n).
  { eapply (wf_parent _ Hwf d p n b' b c); eauto.
    pose proof (wf_lvl _ Hwf _ _ Rp). pose proof (wf_lvl _ Hwf _ _ Rn). lia. }
  subst p. split; [reflexivity|].
  pose proof (wf_nodup _ Hwf _ _ Rn N) as ND.
  rewrite Ec. f_equal. f_equal.
  clear - ND Hi Hi'. induction (ents (h s n)) as [|e t IH]; [destruct Hi|].
  cbn in ND. inversion ND as [|? ? N1 N2]; subst.
  destruct Hi as [->|Hi], Hi' as [E|Hi'].
  - now injection E.
  - exfalso. apply N1. apply in_map_iff. exists (b', c). auto.
  - subst e. exfalso. apply N1. apply in_map_iff. exists (b, c). auto.
  - auto.
Qed.
End Wf.

Lemma snd_inj : forall (l : list ent) b b' c, NoDup (map snd l) -> In (b, c) l -> In (b', c) l -> b = b'.
Proof.
  induction l as [|e t IH]; intros b b' c ND Hi Hi'; [destruct Hi|].
  cbn in ND. inversion ND as [|? ? N1 N2]; subst.
  destruct Hi as [->|Hi], Hi' as [E|Hi'].
  - now injection E.
  - exfalso. apply N1. apply in_map_iff. exists (b', c). auto.
  - subst e. exfalso. apply N1. apply in_map_iff. exists (b, c). auto.
  - eauto.
Qed.

(** ** Another content of a leaf *)
Section Leaf.
Variables (s : st) (Hwf : wf s) (n : Z) (l : list ent) (ch : bool) (k0 : Z).
Hypothesis Hn : wlk s k0 (H s) = Some n.
Hypothesis Hl : asc l.
Hypothesis Hl2 : keys_only l.
Hypothesis Hl3 : forall e, In e l -> fst e = Some k0 \/ In e (ents (h s n)).
Let s' := set_leaf s n l ch.

Lemma sl_reach_n : rch s (H s) n.
Proof. eapply walk_reach; eauto. Qed.
Lemma sl_lvl_n : lvl (h s n) = O.
Proof. pose proof (wf_lvl _ Hwf _ _ sl_reach_n). lia. Qed.
Lemma sl_lvl : forall x, lvl (h s' x) = lvl (h s x).
Proof. intros x. cbn. destruct (Z.eqb_spec x n) as [->|]; reflexivity. Qed.
Lemma sl_ents : forall x, x <> n -> h s' x = h s x.
Proof. intros x N. cbn. now apply Z.eqb_neq in N as ->. Qed.
Lemma sl_ents_n : ents (h s' n) = l.
Proof. cbn. now rewrite Z.eqb_refl. Qed.
Lemma sl_inner : forall x, lvl (h s x) <> O -> h s' x = h s x.
Proof. intros x N. apply sl_ents. intros ->. now rewrite sl_lvl_n in N. Qed.
Lemma sl_reach : forall d x, rch s' d x <-> rch s d x.
Proof.
  intros d x. split; induction 1 as [|d p b c R1 IH N Hi]; try (now constructor).
  - rewrite sl_lvl in N. rewrite sl_inner in Hi by assumption. econstructor; eassumption.
  - econstructor; [exact IH|rewrite sl_lvl; assumption|]. rewrite sl_inner by assumption. eassumption.
Qed.
Lemma sl_walk : forall k d, (d <= H s)%nat -> wlk s' k d = wlk s k d.
Proof.
  intros k. induction d as [|d IH]; intros L; [reflexivity|]. cbn [walk]. rewrite IH by lia. clear IH.
  destruct (wlk s k d) as [p|] eqn:E; [|reflexivity].
  pose proof (walk_reach _ Hwf _ _ _ E ltac:(lia)) as Rp. pose proof (wf_lvl _ Hwf _ _ Rp).
  rewrite sl_inner by lia. reflexivity.
Qed.
Lemma sl_H : H s' = H s.
Proof. apply sl_lvl. Qed.
Lemma sl_wf : wf s'.
Proof.
  constructor.
  - intros d x R1. rewrite sl_H, sl_lvl. apply sl_reach in R1. now apply (wf_lvl _ Hwf).
  - intros d x R1. apply sl_reach in R1. destruct (Z.eq_dec x n) as [->|N]; [now rewrite sl_ents_n|].
    rewrite sl_ents by assumption. eapply wf_asc; eassumption.
  - intros d x R1 N. apply sl_reach in R1. rewrite sl_lvl in N. rewrite sl_inner by assumption. eapply wf_some; eassumption.
  - intros d x R1 N. apply sl_reach in R1. rewrite sl_lvl in N. rewrite sl_inner by assumption. eapply wf_nodup; eassumption.
  - intros d p q b b' c R1 R2 N1 N2. apply sl_reach in R1, R2. rewrite sl_lvl in N1, N2. rewrite !sl_inner by assumption.
    intros. eapply (wf_parent _ Hwf d p q b b' c); eassumption.
  - intros d p b c R1 N1. apply sl_reach in R1. rewrite sl_lvl in N1. rewrite (sl_inner p) by assumption.
    intros Hi N2. rewrite sl_lvl in N2. rewrite sl_inner by assumption. eapply (wf_last _ Hwf d p b c); eassumption.
  - change (root s') with (root s). rewrite sl_lvl. intros N. rewrite sl_inner by assumption. now apply wf_root.
  - intros d x z v R1 Hi. apply sl_reach in R1. rewrite sl_walk by (eapply reach_le; eassumption).
    destruct (Z.eq_dec x n) as [->|N].
    + rewrite sl_ents_n in Hi. pose proof (reach_uniq _ Hwf _ _ _ R1 sl_reach_n) as ->.
      apply Hl3 in Hi as [[= ->]|Hi]; [assumption|]. eapply wf_key; eassumption.
    + rewrite sl_ents in Hi by assumption. eapply wf_key; eassumption.
  - intros d x b v R1 N Hi. apply sl_reach in R1. rewrite sl_lvl in N.
    destruct (Z.eq_dec x n) as [->|Nx].
    + rewrite sl_ents_n in Hi. exact (Hl2 _ Hi).
    + rewrite sl_ents in Hi by assumption. eapply wf_leaf; eassumption.
  - intros d x R1. apply sl_reach in R1. eapply (wf_next _ Hwf); eassumption.
  - intros d x R1. apply sl_reach in R1. eapply (wf_dead _ Hwf); eassumption.
Qed.
Lemma sl_value : (forall k, k <> k0 -> look k l = look k (ents (h s n))) ->
  forall k, value s' k = if k =? k0 then look k l else value s k.
Proof.
  intros Hk k. unfold value at 1. rewrite sl_H, sl_walk by lia. unfold value.
  destruct (Z.eqb_spec k k0) as [->|N]; [rewrite Hn, sl_ents_n; reflexivity|].
  destruct (wlk s k (H s)) as [x|]; [|reflexivity].
  destruct (Z.eq_dec x n) as [->|Nx]; [rewrite sl_ents_n; auto|]. now rewrite sl_ents.
Qed.
End Leaf.

(** ** Children spread anew *)
Lemma before_from : forall c l, l = before c l ++ from c l.
Proof. intros c; induction l as [|e l IH]; cbn; [reflexivity|]. destruct (snd e =? c); cbn; congruence. Qed.
Lemma ids_length : forall n i, length (ids i n) = n.
Proof. induction n; intros; cbn; auto. Qed.
Lemma ids_in : forall n i x, In x (ids i n) <-> i <= x < i + Z.of_nat n.
Proof.
  induction n as [|n IH]; intros i x; cbn [ids In].
  - lia.
  - rewrite IH. lia.
Qed.
Lemma ids_nodup : forall n i, NoDup (ids i n).
Proof. induction n; intros i; cbn; constructor; auto. rewrite ids_in. lia. Qed.
Lemma assoc_in : forall A (l : list (Z * A)) x v, NoDup (map fst l) -> In (x, v) l -> assoc x l = Some v.
Proof.
  intros A. unfold assoc. induction l as [|[y w] l IH]; intros x v ND Hi; [destruct Hi|].
  cbn in ND. inversion ND as [|? ? N1 N2]; subst. cbn. destruct Hi as [[= -> ->]|Hi].
  - rewrite Z.eqb_refl. reflexivity.
  - destruct (Z.eqb_spec y x) as [->|]; [|now apply IH]. exfalso. apply N1. apply in_map_iff. exists (x, v). auto.
Qed.
Lemma assoc_none : forall A (l : list (Z * A)) x, ~ In x (map fst l) -> assoc x l = None.
Proof.
  intros A. unfold assoc. induction l as [|[y w] l IH]; intros x N; [reflexivity|]. cbn in N |- *.
  destruct (Z.eqb_spec y x) as [->|]; [tauto|]. apply IH. tauto.
Qed.
Lemma map_fst_combine : forall A B (l : list A) (l' : list B), length l = length l' -> map fst (combine l l') = l.
Proof. induction l as [|x l IH]; intros [|y l'] E; cbn in *; try discriminate; [reflexivity|]. f_equal. apply IH. now injection E. Qed.
Lemma map_snd_combine : forall A B (l : list A) (l' : list B), length l = length l' -> map snd (combine l l') = l'.
Proof. induction l as [|x l IH]; intros [|y l'] E; cbn in *; try discriminate; [reflexivity|]. f_equal. apply IH. now injection E. Qed.

Lemma nodup_tl : forall A (x y : list A), NoDup (x ++ y) -> NoDup y.
Proof. induction x as [|e x IH]; intros y N; [assumption|]. inversion N; subst. auto. Qed.

Section Redo.
Variables (s s' : st) (Hwf : wf s) (d : nat) (n c : Z) (l : list Z) (parts : list (list ent)) (lower : bool).
Hypothesis Hfresh : forall x, next s <= x -> dead s x = false.
Hypothesis Rn : rch s d n.
Hypothesis Ln : lvl (h s n) <> O.
Hypothesis E : restructure s n c l parts lower = Some s'.

Let es := ents (h s n).
Let a := before c es.
Let old := firstn (S (length l)) (from c es).
Let b := skipn (S (length l)) (from c es).
Let f := fun x => ents (h s x).
Let z := if lower && negb (match b with [] => true | _ => false end)
         then match last parts [] with [] => fst (hd (None, 0) old) | x => lastb x end
         else lastb old.
Let ns := c :: ids (next s) (length parts - 1).
Let new := combine (bounds z parts) ns.

Lemma rd_es : es = a ++ old ++ b.
Proof. unfold old, b. rewrite firstn_skipn. apply before_from. Qed.

Lemma rd_inv : map snd old = c :: l /\ parts_ok parts = true /\ concat parts = concat (map f (map snd old))
  /\ s' = St (fun x => if x =? n then Nd (lvl (h s n)) (a ++ new ++ b)
                else match assoc x (combine ns parts) with
                     | Some p => Nd (lvl (h s c)) p
                     | None => h s x
                     end)
      (root s) (next s + Z.of_nat (length parts - 1))
      (fun x => if (x =? n) || (x =? c) then S (gen s x) else gen s x)
      (fun x => dead s x || existsb (Z.eqb x) l)
      (thr s).
Proof.
  unfold restructure in E. fold es a old b z ns new in E.
  destruct (list_eq_dec Z.eq_dec (map snd old) (c :: l)) as [E1|]; [|discriminate].
  destruct (parts_ok parts) eqn:E2; [|discriminate].
  destruct (list_eq_dec ent_eq_dec (concat parts) (content (h s) (c :: l))) as [E3|]; [|discriminate].
  cbn [andb] in E. injection E as <-. ands; auto. rewrite E1. exact E3.
Qed.
Lemma rd_old : map snd old = c :: l. Proof. apply rd_inv. Qed.
Lemma rd_ok : parts_ok parts = true. Proof. apply rd_inv. Qed.
Lemma rd_C : concat parts = concat (map f (map snd old)). Proof. apply rd_inv. Qed.
Lemma rd_ns : length ns = length parts.
Proof.
  unfold ns. cbn [length]. rewrite ids_length. pose proof rd_ok. destruct parts; [discriminate|]. cbn [length]. lia.
Qed.
Lemma rd_old_ne : old <> [].
Proof. intros N. pose proof rd_old as O1. rewrite N in O1. discriminate. Qed.
Lemma rd_old_es : forall e, In e old -> In e es.
Proof. intros e He. rewrite rd_es. rewrite !in_app_iff. auto. Qed.
Lemma rd_c_in : exists bc, In (bc, c) old.
Proof.
  pose proof rd_old as O1. destruct old as [|[bc c'] t]; [discriminate|]. cbn in O1. injection O1 as -> _.
  exists bc. left. reflexivity.
Qed.
Lemma rd_olds : forall x, In x (c :: l) <-> exists bx, In (bx, x) old.
Proof.
  intros x. rewrite <- rd_old, in_map_iff. split.
  - intros ([bx x'] & <- & Hx). exists bx. exact Hx.
  - intros (bx & Hx). exists (bx, x). auto.
Qed.
Lemma rd_child : forall bx x, In (bx, x) es -> rch s (S d) x.
Proof. intros bx x Hx. econstructor; [exact Rn|exact Ln|exact Hx]. Qed.
Lemma rd_olds_reach : forall x, In x (c :: l) -> rch s (S d) x.
Proof. intros x Hx. apply rd_olds in Hx as (bx & Hx). eapply rd_child, rd_old_es, Hx. Qed.
Lemma rd_lvl_child : forall x, rch s (S d) x -> lvl (h s n) = S (lvl (h s x)).
Proof. intros x Rx. pose proof (wf_lvl _ Hwf _ _ Rx). pose proof (wf_lvl _ Hwf _ _ Rn). lia. Qed.
Lemma rd_lvl_c : lvl (h s n) = S (lvl (h s c)).
Proof. apply rd_lvl_child, rd_olds_reach. left. reflexivity. Qed.

Lemma rd_news : forall x, In x ns -> x = c \/ next s <= x.
Proof. intros x [<-|Hx]; [now left|right]. apply ids_in in Hx. lia. Qed.
Lemma rd_news_nodup : NoDup ns.
Proof.
  constructor; [|apply ids_nodup]. rewrite ids_in.
  pose proof (wf_next _ Hwf _ _ (rd_olds_reach c (or_introl eq_refl))). lia.
Qed.
Lemma rd_n_new : ~ In n ns.
Proof.
  intros Hx. apply rd_news in Hx as [Hx|Hx].
  - pose proof rd_lvl_c as L. rewrite <- Hx in L. lia.
  - pose proof (wf_next _ Hwf _ _ Rn). lia.
Qed.
Lemma rd_h_n : h s' n = Nd (lvl (h s n)) (a ++ new ++ b).
Proof. destruct rd_inv as (_ & _ & _ & Es). rewrite Es. cbn. now rewrite Z.eqb_refl. Qed.
Lemma rd_h_new : forall i p, In (i, p) (combine ns parts) -> h s' i = Nd (lvl (h s c)) p.
Proof.
  intros i p Hi. destruct rd_inv as (_ & _ & _ & Es). rewrite Es. cbn [h].
  assert (N : i <> n) by (intros ->; apply rd_n_new; eapply in_combine_l; eassumption).
  apply Z.eqb_neq in N as ->. rewrite (assoc_in _ _ i p); [reflexivity| |assumption].
  rewrite map_fst_combine by apply rd_ns. apply rd_news_nodup.
Qed.
Lemma rd_h_other : forall x, x <> n -> ~ In x ns -> h s' x = h s x.
Proof.
  intros x N N'. destruct rd_inv as (_ & _ & _ & Es). rewrite Es. cbn [h].
  apply Z.eqb_neq in N as ->. rewrite assoc_none; [reflexivity|]. rewrite map_fst_combine by apply rd_ns. assumption.
Qed.
Lemma rd_root : root s' = root s. Proof. destruct rd_inv as (_ & _ & _ & Es). rewrite Es. reflexivity. Qed.
Lemma rd_thr : thr s' = thr s. Proof. destruct rd_inv as (_ & _ & _ & Es). rewrite Es. reflexivity. Qed.
Lemma rd_next : next s' = next s + Z.of_nat (length parts - 1). Proof. destruct rd_inv as (_ & _ & _ & Es). rewrite Es. reflexivity. Qed.
Lemma rd_gen : forall x, gen s' x = if (x =? n) || (x =? c) then S (gen s x) else gen s x.
Proof. destruct rd_inv as (_ & _ & _ & Es). rewrite Es. reflexivity. Qed.
Lemma rd_dead : forall x, dead s' x = dead s x || existsb (Z.eqb x) l.
Proof. destruct rd_inv as (_ & _ & _ & Es). rewrite Es. reflexivity. Qed.

Lemma rd_new_part : forall i, In i ns -> exists p, In (i, p) (combine ns parts).
Proof. intros i Hi. apply in_combine_ex; [apply rd_ns|assumption]. Qed.
(** every node known before keeps its level; those reached and not old, all *)
Lemma rd_lvl : forall x, x < next s -> lvl (h s' x) = lvl (h s x).
Proof.
  intros x L. destruct (Z.eq_dec x n) as [->|N]; [rewrite rd_h_n; reflexivity|].
  destruct (in_dec Z.eq_dec x ns) as [Hx|Hx]; [|now rewrite rd_h_other].
  destruct (rd_new_part _ Hx) as (p & Hp). rewrite (rd_h_new _ _ Hp). cbn.
  apply rd_news in Hx as [->|Hx]; [reflexivity|lia].
Qed.
Lemma rd_same : forall e x, rch s e x -> x <> n -> ~ In x (c :: l) -> h s' x = h s x.
Proof.
  intros e x Rx N N'. apply rd_h_other; [assumption|]. intros Hx. apply rd_news in Hx as [->|Hx].
  - apply N'. left. reflexivity.
  - pose proof (wf_next _ Hwf _ _ Rx). lia.
Qed.
Lemma rd_H : lvl (h s' (root s)) = H s.
Proof. apply rd_lvl. eapply wf_next; [eassumption|constructor]. Qed.

(** hypotheses of the list lemmas *)
Lemma rd_asc : asc (a ++ old ++ b).
Proof. rewrite <- rd_es. exact (wf_asc _ Hwf _ _ Rn). Qed.
Lemma rd_K0 : forall bj cj k v, In (bj, cj) es -> In (Some k, v) (f cj) ->
  wlk s k d = Some n /\ pick k (a ++ old ++ b) = Some (bj, cj).
Proof. intros bj cj k v Hj Hk. rewrite <- rd_es. eapply child_key; eassumption. Qed.
Lemma rd_K : forall bj cj k v, In (bj, cj) old -> In (Some k, v) (f cj) -> pick k (a ++ old ++ b) = Some (bj, cj).
Proof. intros bj cj k v Hj Hk. eapply rd_K0; [apply rd_old_es; exact Hj|exact Hk]. Qed.
Lemma rd_A : forall bj cj, In (bj, cj) old -> asc (f cj).
Proof. intros bj cj Hj. eapply wf_asc; [exact Hwf|]. eapply rd_child, rd_old_es, Hj. Qed.
Lemma rd_N : forall bj cj v, In (bj, cj) old -> In (None, v) (f cj) -> bj = None.
Proof.
  intros bj cj v Hj Hv. pose proof (rd_old_es _ Hj) as Hj'. pose proof (rd_child _ _ Hj') as Rj.
  destruct (Nat.eq_dec (lvl (h s cj)) 0) as [L0|L0].
  - exfalso. exact (wf_leaf _ Hwf _ _ _ _ Rj L0 Hv eq_refl).
  - rewrite <- (wf_last _ Hwf d n bj cj Rn Ln Hj' L0). eapply asc_none_last; [eapply wf_asc; eassumption|exact Hv|reflexivity].
Qed.
Lemma rd_all_asc : asc (a ++ new ++ b).
Proof. apply (all_asc a old b f rd_asc rd_K rd_A rd_N rd_old_ne parts lower ns rd_ok rd_C rd_ns). Qed.

Lemma rd_new_ns : map snd new = ns.
Proof. apply map_snd_combine. rewrite bounds_length. symmetry. apply rd_ns. Qed.

(** ** Which nodes are reached *)
Lemma rd_uniq_child : forall e p bx x, rch s e p -> lvl (h s p) <> O -> In (bx, x) (ents (h s p)) ->
  In x (c :: l) -> e = d /\ p = n.
Proof.
  intros e p bx x Rp Lp Hx Ho. pose proof (rd_olds_reach _ Ho) as Rx.
  assert (Rx' : rch s (S e) x) by (econstructor; eassumption).
  pose proof (reach_uniq _ Hwf _ _ _ Rx Rx') as Ed. injection Ed as ->. split; [reflexivity|].
  apply rd_olds in Ho as (by' & Ho). eapply (wf_parent _ Hwf e p n); eauto. apply rd_old_es. exact Ho.
Qed.
Lemma rd_part_child : forall i p e, In (i, p) (combine ns parts) -> In e p ->
  exists bj cj, In (bj, cj) old /\ In e (f cj).
Proof.
  intros i p e Hi He. apply (in_C old f). rewrite <- rd_C. apply in_concat. exists p. split; [|assumption].
  eapply in_combine_r; eassumption.
Qed.

Lemma rd_nodup_es : NoDup (map snd es).
Proof. exact (wf_nodup _ Hwf _ _ Rn Ln). Qed.
Lemma rd_ab_not_old : forall e, In e a \/ In e b -> ~ In (snd e) (c :: l).
Proof.
  intros e He Ho. pose proof rd_nodup_es as ND. rewrite rd_es, !map_app in ND.
  rewrite <- rd_old in Ho.
  assert (D : forall (x y : list Z) v, NoDup (x ++ y) -> In v x -> In v y -> False).
  { clear. induction x as [|u x IH]; intros y v ND Hx Hy; [destruct Hx|]. cbn in ND. inversion ND; subst.
    destruct Hx as [->|Hx]; [|eauto]. apply H1. apply in_app_iff. auto. }
  destruct He as [He|He]; apply (in_map snd) in He.
  - apply (D _ _ _ ND He). apply in_app_iff. now left.
  - apply nodup_tl in ND. exact (D _ _ _ ND Ho He).
Qed.

Lemma rd_reach : forall e x, rch s' e x -> (e = S d /\ In x ns) \/ (rch s e x /\ (In x (c :: l) -> False)).
Proof.
  intros e x Rx. rewrite rd_root in Rx. induction Rx as [|e p bx x Rp IH Lp Hx].
  - right. split; [constructor|]. intros Ho. apply rd_olds_reach in Ho.
    pose proof (reach_uniq _ Hwf _ _ _ Ho (R0 _ _)). discriminate.
  - destruct IH as [[-> Hp]|[Rp' Np]].
    + destruct (rd_new_part _ Hp) as (q & Hq). rewrite (rd_h_new _ _ Hq) in Lp, Hx. cbn in Lp, Hx.
      destruct (rd_part_child _ _ _ Hq Hx) as (bj & cj & Hj & Hjx).
      assert (Rx : rch s (S (S d)) x).
      { econstructor; [eapply rd_child, rd_old_es, Hj| |exact Hjx].
        pose proof (rd_lvl_child _ (rd_child _ _ (rd_old_es _ Hj))). pose proof rd_lvl_c. lia. }
      right. split; [assumption|]. intros Ho. apply rd_olds_reach in Ho.
      pose proof (reach_uniq _ Hwf _ _ _ Ho Rx). lia.
    + destruct (Z.eq_dec p n) as [->|Nn].
      * pose proof (reach_uniq _ Hwf _ _ _ Rp' Rn) as ->. rewrite rd_h_n in Hx. cbn in Hx.
        rewrite !in_app_iff in Hx. destruct Hx as [Hx|[Hx|Hx]].
        -- right. split; [apply (rd_child bx); rewrite rd_es, !in_app_iff; auto|]. apply (rd_ab_not_old (bx, x)). auto.
        -- left. split; [reflexivity|]. unfold new in Hx. eapply in_combine_r; eassumption.
        -- right. split; [apply (rd_child bx); rewrite rd_es, !in_app_iff; auto|]. apply (rd_ab_not_old (bx, x)). auto.
      * rewrite (rd_same _ _ Rp' Nn Np) in Lp, Hx. right. split; [econstructor; eassumption|].
        intros Ho. now destruct (rd_uniq_child _ _ _ _ Rp' Lp Hx Ho).
Qed.

(** ** Where keys go *)
Lemma rd_walk_above : forall k e, (e <= d)%nat -> wlk s' k e = wlk s k e.
Proof.
  intros k. rewrite rd_root. pose proof (reach_le _ Hwf _ _ Rn) as Ld.
  induction e as [|e IH]; intros L; [reflexivity|]. cbn [walk]. rewrite IH by lia.
  destruct (wlk s k e) as [p|] eqn:Ep; [|reflexivity].
  pose proof (walk_reach _ Hwf _ _ _ Ep ltac:(lia)) as Rp. rewrite (rd_same _ _ Rp); [reflexivity| |].
  - intros ->. pose proof (reach_uniq _ Hwf _ _ _ Rp Rn). lia.
  - intros Ho. apply rd_olds_reach in Ho. pose proof (reach_uniq _ Hwf _ _ _ Rp Ho). lia.
Qed.
Lemma rd_walk_at : forall k m, wlk s k (S d) = Some m -> ~ In m (c :: l) -> wlk s' k (S d) = Some m.
Proof.
  intros k m Em N. cbn [walk] in *. rewrite rd_walk_above by lia.
  destruct (wlk s k d) as [p|] eqn:Ep; [|discriminate].
  pose proof (walk_reach _ Hwf _ _ _ Ep (reach_le _ Hwf _ _ Rn)) as Rp.
  destruct (Z.eq_dec p n) as [->|Np].
  - rewrite rd_h_n. cbn [ents]. fold es in Em. rewrite rd_es in Em.
    destruct (pick k (a ++ old ++ b)) as [e|] eqn:Ek; [|discriminate].
    assert (Ek' : pick k (a ++ new ++ b) = Some e); [|rewrite Ek'; assumption].
    apply (keep_out a old b f rd_asc rd_K rd_A rd_N rd_old_ne parts lower ns rd_ok rd_C rd_ns k e Ek).
    intros Ho. apply N. cbn in Em. injection Em as <-. apply rd_olds. exists (fst e). destruct e; exact Ho.
  - rewrite (rd_same _ _ Rp Np); [assumption|]. intros Ho. apply rd_olds_reach in Ho.
    pose proof (reach_uniq _ Hwf _ _ _ Rp Ho). lia.
Qed.
Lemma rd_walk_old : forall k m, wlk s k (S d) = Some m -> In m (c :: l) ->
  wlk s k d = Some n /\ exists bm, In (bm, m) old /\ pick k (a ++ old ++ b) = Some (bm, m).
Proof.
  intros k m Em Ho. cbn [walk] in *. destruct (wlk s k d) as [p|] eqn:Ep; [|discriminate].
  pose proof (walk_reach _ Hwf _ _ _ Ep (reach_le _ Hwf _ _ Rn)) as Rp.
  destruct (pick k (ents (h s p))) as [[bm m']|] eqn:Ek; [|discriminate]. injection Em as ->.
  pose proof (pick_in _ _ _ Ek) as Hi.
  assert (Lp : lvl (h s p) <> O).
  { pose proof (wf_lvl _ Hwf _ _ Rp). pose proof (wf_lvl _ Hwf _ _ Rn). lia. }
  destruct (rd_uniq_child _ _ _ _ Rp Lp Hi Ho) as [_ ->]. split; [reflexivity|].
  exists bm. rewrite <- rd_es. split; [|exact Ek].
  pose proof Ho as Ho'. apply rd_olds in Ho' as (bm' & Ho'). pose proof (rd_old_es _ Ho') as Hi'.
  rewrite (snd_inj es bm bm' m rd_nodup_es Hi Hi'). assumption.
Qed.
Lemma rd_walk_below : forall k, lvl (h s c) <> O -> wlk s' k (S (S d)) = wlk s k (S (S d)).
Proof.
  intros k Lc. pose proof rd_lvl_c as Lnc. pose proof (wf_lvl _ Hwf _ _ Rn) as Ldn.
  destruct (walk_total _ Hwf k (S d)) as (m & Em & _); [lia|].
  destruct (in_dec Z.eq_dec m (c :: l)) as [Ho|Ho].
  - destruct (rd_walk_old _ _ Em Ho) as (En & bm & Hm & Pm).
    assert (Hf : forall bj cj, In (bj, cj) old -> f cj <> [] /\ lastb (f cj) = bj).
    { intros bj cj Hj. pose proof (rd_old_es _ Hj) as Hj'. pose proof (rd_child _ _ Hj') as Rj.
      pose proof (rd_lvl_child _ Rj). split; [eapply wf_some; [exact Hwf|exact Rj|lia]|].
      eapply (wf_last _ Hwf d n); eauto. lia. }
    destruct (same_below a old b f rd_asc rd_K rd_A rd_N rd_old_ne parts lower ns rd_ok rd_C rd_ns Hf _ _ _ Pm Hm)
      as (bb & i & p & P1 & P2 & P3 & P4).
    cbn [walk] in *. rewrite rd_walk_above, En by lia. rewrite rd_h_n. cbn [ents].
    fold z new in P1. rewrite P1. cbn [option_map snd]. rewrite (rd_h_new _ _ P3). cbn [ents]. rewrite P4.
    rewrite En in Em. fold es in Em |- *. rewrite rd_es, Pm. cbn. reflexivity.
  - pose proof (rd_walk_at _ _ Em Ho) as Em'. cbn [walk] in *. rewrite Em, Em'.
    pose proof (walk_reach _ Hwf k (S d) m Em ltac:(lia)) as Rm.
    rewrite (rd_same _ _ Rm); [reflexivity| |assumption].
    intros ->. pose proof (reach_uniq _ Hwf _ _ _ Rm Rn). lia.
Qed.
Lemma rd_walk : forall k e m, (e <= H s)%nat -> wlk s k e = Some m -> ~ In m (c :: l) -> wlk s' k e = Some m.
Proof.
  intros k e. destruct (Nat.le_gt_cases e d) as [L|L].
  { intros m _ Em _. now rewrite rd_walk_above. }
  replace e with (S d + (e - S d))%nat by lia. generalize (e - S d)%nat as j. clear L e.
  induction j as [|j IH]; intros m L Em N.
  - rewrite Nat.add_0_r in *. now apply rd_walk_at.
  - destruct j as [|j].
    + replace (S d + 1)%nat with (S (S d)) in * by lia. rewrite rd_walk_below; [assumption|].
      pose proof (wf_lvl _ Hwf _ _ (rd_olds_reach c (or_introl eq_refl))). lia.
    + replace (S d + S (S j))%nat with (S (S d + S j)) in * by lia. cbn [walk] in Em |- *.
      destruct (wlk s k (S d + S j)) as [p|] eqn:Ep; [|discriminate].
      pose proof (walk_reach _ Hwf _ _ _ Ep ltac:(lia)) as Rp.
      assert (Np : ~ In p (c :: l)).
      { intros Ho. apply rd_olds_reach in Ho. pose proof (reach_uniq _ Hwf _ _ _ Rp Ho). lia. }
      rewrite (IH p); [|lia|reflexivity|assumption]. rewrite (rd_same _ _ Rp); auto.
      intros ->. pose proof (reach_uniq _ Hwf _ _ _ Rp Rn). lia.
Qed.

(** ** Still a tree, with the same values *)
Lemma rd_inner : lvl (h s c) <> O -> forall bj cj, In (bj, cj) old -> f cj <> [] /\ lastb (f cj) = bj.
Proof.
  intros Lc bj cj Hj. pose proof (rd_old_es _ Hj) as Hj'. pose proof (rd_child _ _ Hj') as Rj.
  pose proof (rd_lvl_child _ Rj) as L1. pose proof rd_lvl_c as L2. split; [eapply wf_some; [exact Hwf|exact Rj|lia]|].
  eapply (wf_last _ Hwf d n); eauto. lia.
Qed.
Lemma rd_lvl_old : forall bj cj, In (bj, cj) old -> lvl (h s cj) = lvl (h s c).
Proof.
  intros bj cj Hj. pose proof (rd_lvl_child _ (rd_child _ _ (rd_old_es _ Hj))). pose proof rd_lvl_c. lia.
Qed.
Lemma nodup_app : forall A (x y : list A), NoDup x -> NoDup y -> (forall v, In v x -> In v y -> False) -> NoDup (x ++ y).
Proof.
  induction x as [|e x IH]; intros y N1 N2 D; cbn; [assumption|]. inversion N1; subst. constructor.
  - rewrite in_app_iff. intros [?|Hy]; [tauto|]. apply (D e); [left; reflexivity|assumption].
  - apply IH; auto. intros v Hx Hy. apply (D v); [right; assumption|assumption].
Qed.
Lemma rd_nodup_C : lvl (h s c) <> O -> NoDup (map snd (concat parts)).
Proof.
  intros Lc. rewrite rd_C.
  assert (Hall : forall o, In o old -> In o es) by apply rd_old_es.
  assert (NDo : NoDup (map snd old)).
  { pose proof rd_nodup_es as ND. rewrite rd_es, !map_app in ND. apply nodup_tl in ND.
    clear - ND. induction (map snd old) as [|x t IH]; [constructor|]. cbn in ND. inversion ND; subst.
    constructor; [|auto]. intros Hx. apply H1. apply in_app_iff. now left. }
  assert (Lo : forall bj cj, In (bj, cj) old -> lvl (h s cj) <> O).
  { intros bj cj Hj. rewrite (rd_lvl_old _ _ Hj). assumption. }
  revert NDo Hall Lo. generalize old as o. induction o as [|[b1 c1] o IH]; intros NDo Hall Lo; cbn; [constructor|].
  cbn in NDo. inversion NDo as [|? ? N1 N2]; subst. rewrite map_app. apply nodup_app.
  - eapply wf_nodup; [exact Hwf|eapply rd_child; apply Hall; left; reflexivity|]. eapply Lo. left. reflexivity.
  - apply IH; auto. + intros; apply Hall; now right. + intros; eapply Lo; right; eassumption.
  - intros v Hv1 Hv2. apply in_map_iff in Hv1 as ([bv v1] & Ev & Hv1). cbn in Ev. subst v1.
    apply in_map_iff in Hv2 as ([bw v2] & Ev & Hv2). cbn in Ev. subst v2.
    apply in_concat in Hv2 as (y & Hy & Hv2). rewrite map_map in Hy. apply in_map_iff in Hy as ([b2 c2] & <- & H2).
    cbn [snd] in Hv2. apply N1. apply in_map_iff. exists (b2, c2). split; [|assumption]. cbn. symmetry.
    eapply (wf_parent _ Hwf (S d) c1 c2 bv bw v); [eapply rd_child; apply Hall; left; reflexivity
      |eapply rd_child; apply Hall; right; eassumption|eapply Lo; left; reflexivity|eapply Lo; right; eassumption| |]; assumption.
Qed.
Lemma part_uniq : forall (ms : list Z) (ps : list (list ent)) i j p q x, NoDup (map snd (concat ps)) ->
  In (i, p) (combine ms ps) -> In (j, q) (combine ms ps) -> In x (map snd p) -> In x (map snd q) -> i = j.
Proof.
  induction ms as [|m ms IH]; intros ps i j p q x ND Hi Hj Hp Hq; [destruct Hi|].
  destruct ps as [|p0 ps]; [destruct Hi|]. cbn in ND. rewrite map_app in ND.
  assert (D : forall v, In v (map snd p0) -> In v (map snd (concat ps)) -> False).
  { clear - ND. induction (map snd p0) as [|u w IHw]; intros v Hv Hw; [destruct Hv|]. cbn in ND. inversion ND; subst.
    destruct Hv as [->|Hv]; [|eauto]. apply H1, in_app_iff. now right. }
  assert (In1 : forall i p, In (i, p) (combine ms ps) -> In x (map snd p) -> In x (map snd (concat ps))).
  { intros i' p' H1 H2. apply in_map_iff in H2 as (e & <- & He). apply in_map. apply in_concat. exists p'.
    split; [eapply in_combine_r; eassumption|assumption]. }
  destruct Hi as [[= <- <-]|Hi], Hj as [[= <- <-]|Hj].
  - reflexivity.
  - exfalso. eauto.
  - exfalso. eauto.
  - eapply IH; eauto. eapply nodup_tl; eassumption.
Qed.

Lemma rd_part_asc : forall i p, In (i, p) (combine ns parts) -> asc p.
Proof.
  intros i p H1. pose proof (C_asc a old b f rd_asc rd_K rd_A rd_N) as AC. rewrite <- rd_C in AC. apply in_combine_r in H1.
  apply in_split in H1 as (p1 & p2 & Ep). rewrite Ep, concat_app in AC. apply asc_app in AC as (_ & AC & _).
  now apply asc_app in AC as (AC & _).
Qed.
(** a node reached afterwards: new, the parent, or as before *)
Lemma rd_reach3 : forall e x, rch s' e x ->
  (e = S d /\ exists p, In (x, p) (combine ns parts) /\ h s' x = Nd (lvl (h s c)) p)
  \/ (e = d /\ x = n)
  \/ (rch s e x /\ h s' x = h s x /\ x <> n /\ ~ In x (c :: l)).
Proof.
  intros e x Rx. destruct (rd_reach _ _ Rx) as [[-> Hx]|[Rx' Nx]].
  - left. split; [reflexivity|]. destruct (rd_new_part _ Hx) as (p & Hp). exists p. split; [assumption|]. now apply rd_h_new.
  - right. destruct (Z.eq_dec x n) as [->|N]; [left|right].
    + split; [|reflexivity]. eapply reach_uniq; eassumption.
    + ands; auto. eapply rd_same; eassumption.
Qed.
Lemma rd_ab : forall bx x, In (bx, x) a \/ In (bx, x) b -> In (bx, x) es /\ rch s (S d) x /\ h s' x = h s x /\ ~ In x (c :: l).
Proof.
  intros bx x Hx. assert (Hes : In (bx, x) es) by (rewrite rd_es, !in_app_iff; tauto).
  pose proof (rd_child _ _ Hes) as Rx. pose proof (rd_ab_not_old _ Hx) as No. cbn in No.
  ands; auto. eapply rd_same; [exact Rx| |exact No]. intros ->. pose proof (reach_uniq _ Hwf _ _ _ Rx Rn). lia.
Qed.
Lemma rd_new_id : forall bx x, In (bx, x) new -> In x ns.
Proof. intros bx x Hx. unfold new in Hx. eapply in_combine_r; eassumption. Qed.

Lemma rd_wf : wf s'.
Proof.
  pose proof rd_lvl_c as Lnc. pose proof (wf_lvl _ Hwf _ _ Rn) as Ldn.
  constructor.
  - intros e x Rx. rewrite rd_root, rd_H. destruct (rd_reach3 _ _ Rx) as [(-> & p & Hp & ->)|[(-> & ->)|(Rx' & -> & _)]].
    + cbn. lia.
    + rewrite rd_h_n. cbn. lia.
    + now apply wf_lvl.
  - intros e x Rx. destruct (rd_reach3 _ _ Rx) as [(-> & p & Hp & ->)|[(-> & ->)|(Rx' & -> & _)]].
    + eapply rd_part_asc; exact Hp.
    + rewrite rd_h_n. apply rd_all_asc.
    + eapply wf_asc; eassumption.
  - intros e x Rx. destruct (rd_reach3 _ _ Rx) as [(-> & p & Hp & ->)|[(-> & ->)|(Rx' & -> & _)]].
    + cbn. intros Lc.
      apply (inner_parts a old b f rd_asc rd_K rd_A rd_N rd_old_ne parts lower ns rd_ok rd_C rd_ns); [intros bj cj; apply rd_inner; assumption|].
      eapply in_combine_r; eassumption.
    + rewrite rd_h_n. cbn [ents]. intros _ N. apply app_eq_nil in N as [_ N]. apply app_eq_nil in N as [N _].
      pose proof rd_new_ns as M. rewrite N in M. discriminate.
    + eapply wf_some; eassumption.
  - intros e x Rx. destruct (rd_reach3 _ _ Rx) as [(-> & p & Hp & ->)|[(-> & ->)|(Rx' & -> & _)]].
    + cbn. intros Lc. pose proof (rd_nodup_C Lc) as ND. apply in_combine_r in Hp.
      apply in_split in Hp as (p1 & p2 & Ep). rewrite Ep, concat_app, map_app in ND. apply nodup_tl in ND. cbn in ND.
      rewrite map_app in ND. clear - ND. induction (map snd p) as [|u w IH]; [constructor|]. cbn in ND. inversion ND; subst.
      constructor; [|auto]. intros Hu. apply H1, in_app_iff. now left.
    + intros _. rewrite rd_h_n. cbn [ents]. rewrite !map_app, rd_new_ns.
      pose proof rd_nodup_es as ND. rewrite rd_es, !map_app in ND.
      assert (Na : forall v, In v (map snd a) -> v < next s /\ v <> c).
      { intros v Hv. apply in_map_iff in Hv as ([bv v'] & <- & Hv). cbn. destruct (rd_ab _ _ (or_introl Hv)) as (_ & Rv & _ & Nv).
        split; [eapply wf_next; eassumption|]. intros ->. apply Nv. left. reflexivity. }
      assert (Nb : forall v, In v (map snd b) -> v < next s /\ v <> c).
      { intros v Hv. apply in_map_iff in Hv as ([bv v'] & <- & Hv). cbn. destruct (rd_ab _ _ (or_intror Hv)) as (_ & Rv & _ & Nv).
        split; [eapply wf_next; eassumption|]. intros ->. apply Nv. left. reflexivity. }
      assert (D : forall (x y : list Z) v, NoDup (x ++ y) -> In v x -> In v y -> False).
      { clear. induction x as [|u x IH]; intros y v ND Hx Hy; [destruct Hx|]. cbn in ND. inversion ND; subst.
        destruct Hx as [->|Hx]; [|eauto]. apply H1. apply in_app_iff. auto. }
      apply nodup_app.
      * clear - ND. induction (map snd a) as [|u w IH]; [constructor|]. cbn in ND. inversion ND; subst.
        constructor; [|auto]. intros Hu. apply H1, in_app_iff. now left.
      * apply nodup_app; [apply rd_news_nodup|do 2 (apply nodup_tl in ND); assumption|].
        intros v H1 H2. apply rd_news in H1. apply Nb in H2. lia.
      * intros v H1 H2. apply in_app_iff in H2 as [H2|H2].
        -- apply rd_news in H2. apply Na in H1. lia.
        -- apply (D _ _ _ ND H1). apply in_app_iff. now right.
    + eapply wf_nodup; eassumption.
  - intros e p q bx bx' x Rp Rq.
    assert (Lcn : lvl (h s c) <> O -> forall i p0, In (i, p0) (combine ns parts) -> forall e0 q0 b0 b1,
        rch s e0 q0 -> q0 <> n -> ~ In q0 (c :: l) -> lvl (h s q0) <> O -> e0 = S d ->
        In (b0, x) p0 -> In (b1, x) (ents (h s q0)) -> False).
    { intros Lc i p0 Hi e0 q0 b0 b1 R1 N1 N2 L1 -> I1 I2.
      destruct (rd_part_child _ _ _ Hi I1) as (bj & cj & Hj & Hjx). apply N2.
      assert (cj = q0) as <-.
      { eapply (wf_parent _ Hwf (S d) cj q0); eauto; [eapply rd_child, rd_old_es, Hj|].
        rewrite (rd_lvl_old _ _ Hj). assumption. }
      apply rd_olds. exists bj. assumption. }
    assert (Nq : forall q0 b0 b1, rch s d q0 -> q0 <> n -> lvl (h s q0) <> O ->
        In (b0, x) (a ++ new ++ b) -> In (b1, x) (ents (h s q0)) -> False).
    { intros q0 b0 b1 R1 N1 L1 I1 I2. rewrite !in_app_iff in I1.
      assert (G : In (b0, x) a \/ In (b0, x) b -> False).
      { intros I3. destruct (rd_ab _ _ I3) as (Hes & _). apply N1. eapply (wf_parent _ Hwf d q0 n); eauto. }
      destruct I1 as [I1|[I1|I1]]; auto. apply rd_new_id, rd_news in I1 as [->|I1].
      - apply N1. apply (rd_uniq_child _ _ _ _ R1 L1 I2). left. reflexivity.
      - assert (Rx : rch s (S d) x) by (econstructor; eassumption). pose proof (wf_next _ Hwf _ _ Rx). lia. }
    destruct (rd_reach3 _ _ Rp) as [(-> & p' & Hp & ->)|[(-> & ->)|(Rp' & -> & Np1 & Np2)]];
    destruct (rd_reach3 _ _ Rq) as [(Ee & q' & Hq & ->)|[(Ee & ->)|(Rq' & -> & Nq1 & Nq2)]]; cbn [lvl ents].
    + intros Lc _ Hx Hx'. eapply (part_uniq ns parts p q p' q' x); eauto using rd_nodup_C; [apply (in_map snd) in Hx|apply (in_map snd) in Hx']; assumption.
    + lia.
    + intros Lc Lq Hx Hx'. exfalso. eapply Lcn; eauto.
    + lia.
    + reflexivity.
    + rewrite rd_h_n. cbn [lvl ents]. intros _ Lq Hx Hx'. exfalso. eapply Nq; eauto.
    + subst e. intros Lp Lc Hx Hx'. exfalso. eapply Lcn; eauto.
    + subst e. rewrite rd_h_n. cbn [lvl ents]. intros Lp _ Hx Hx'. exfalso. eapply Nq; eauto.
    + intros. eapply (wf_parent _ Hwf e p q); eauto.
  - intros e p bx x Rp. destruct (rd_reach3 _ _ Rp) as [(-> & p' & Hp & ->)|[(-> & ->)|(Rp' & -> & Np1 & Np2)]]; cbn [lvl ents].
    + intros Lc Hx Lx. destruct (rd_part_child _ _ _ Hp Hx) as (bj & cj & Hj & Hjx).
      pose proof (rd_child _ _ (rd_old_es _ Hj)) as Rj. pose proof (rd_lvl_old _ _ Hj) as Lj.
      assert (Rx : rch s (S (S d)) x) by (econstructor; [exact Rj|lia|exact Hjx]).
      assert (Ex : h s' x = h s x).
      { eapply rd_same; [exact Rx| |].
        - intros ->. pose proof (reach_uniq _ Hwf _ _ _ Rx Rn). lia.
        - intros Ho. apply rd_olds_reach in Ho. pose proof (reach_uniq _ Hwf _ _ _ Rx Ho). lia. }
      rewrite Ex in Lx |- *. eapply (wf_last _ Hwf (S d) cj); eauto. lia.
    + rewrite rd_h_n. cbn [lvl ents]. intros _ Hx Lx. rewrite !in_app_iff in Hx.
      assert (G : In (bx, x) a \/ In (bx, x) b -> lastb (ents (h s' x)) = bx).
      { intros I3. destruct (rd_ab _ _ I3) as (Hes & Rx & Ex & _). rewrite Ex in Lx |- *. eapply (wf_last _ Hwf d n); eauto. }
      destruct Hx as [Hx|[Hx|Hx]]; auto.
      assert (Lc : lvl (h s c) <> O).
      { destruct (rd_new_part x (rd_new_id _ _ Hx)) as (p & Hp). rewrite (rd_h_new _ _ Hp) in Lx. exact Lx. }
      destruct (inner_new a old b f rd_asc rd_K rd_A rd_N rd_old_ne parts lower ns rd_ok rd_C rd_ns (rd_inner Lc) bx x Hx) as (p & Hp & <-).
      rewrite (rd_h_new _ _ Hp). reflexivity.
    + intros Lp Hx Lx.
      assert (Rx : rch s (S e) x) by (econstructor; eassumption).
      destruct (Z.eq_dec x n) as [->|Nx].
      * rewrite rd_h_n. cbn [ents].
        assert (El : lastb (a ++ new ++ b) = lastb (a ++ old ++ b))
          by apply (all_lastb a old b f rd_asc rd_K rd_old_ne parts lower ns rd_ok rd_C rd_ns).
        rewrite El, <- rd_es. eapply (wf_last _ Hwf e p); eauto.
      * assert (Ex : h s' x = h s x).
        { eapply rd_same; [exact Rx|exact Nx|]. intros Ho. now destruct (rd_uniq_child _ _ _ _ Rp' Lp Hx Ho). }
        rewrite Ex in Lx |- *. eapply (wf_last _ Hwf e p); eauto.
  - rewrite rd_root, rd_H. intros L. destruct (Z.eq_dec (root s) n) as [Er|Nr].
    + rewrite Er, rd_h_n. cbn [ents].
      assert (El : lastb (a ++ new ++ b) = lastb (a ++ old ++ b))
        by apply (all_lastb a old b f rd_asc rd_K rd_old_ne parts lower ns rd_ok rd_C rd_ns).
      rewrite El, <- rd_es. unfold es. rewrite <- Er. now apply wf_root.
    + rewrite (rd_same 0%nat); [now apply wf_root|constructor|assumption|].
      intros Ho. apply rd_olds_reach in Ho. pose proof (reach_uniq _ Hwf _ _ _ Ho (R0 _ _)). discriminate.
  - intros e x y v Rx Hy. destruct (rd_reach3 _ _ Rx) as [(-> & p & Hp & Ex)|[(-> & ->)|(Rx' & Ex & _ & No)]].
    + rewrite Ex in Hy. cbn in Hy.
      destruct (rd_part_child _ _ _ Hp Hy) as (bj & cj & Hj & Hjx).
      destruct (rd_K0 _ _ _ _ (rd_old_es _ Hj) Hjx) as [Wy _].
      destruct (new_key a old b f rd_asc rd_K rd_A rd_N parts lower ns rd_ok rd_C rd_ns x p y v Hp Hy) as (bb & Pb & _).
      cbn [walk]. rewrite rd_walk_above, Wy by lia. rewrite rd_h_n. cbn [ents].
      unfold new, z. rewrite Pb. reflexivity.
    + rewrite rd_walk_above by lia. rewrite rd_h_n in Hy. cbn [ents] in Hy.
      assert (Old : forall w, In (Some y, w) es -> wlk s y d = Some n) by (intros w Hw; eapply wf_key; eassumption).
      assert (InC : forall w, In (Some y, w) (concat (map f (map snd old))) -> wlk s y d = Some n).
      { intros w Hw. apply (in_C old f) in Hw as (bj & cj & Hj & Hjx). apply (rd_K0 _ _ _ _ (rd_old_es _ Hj) Hjx). }
      rewrite !in_app_iff in Hy. destruct Hy as [Hy|[Hy|Hy]].
      * apply (Old v). rewrite rd_es, !in_app_iff. auto.
      * destruct (new_from old b f parts lower ns rd_ok rd_C rd_ns _ Hy) as [Ez|([g w] & Hg & Eg)].
        -- destruct (z4 a old b f rd_asc rd_K rd_A rd_N rd_old_ne parts lower ns rd_ok rd_C rd_ns) as [([g w] & Hg & Eg)|([g w] & Hg & Eg)].
           ++ cbn [fst] in Ez, Eg. rewrite <- Eg in Ez. subst g. apply (Old w). now apply rd_old_es.
           ++ cbn [fst] in Ez, Eg. rewrite <- Eg in Ez. subst g. now apply (InC w).
        -- cbn [fst] in Eg. subst g. now apply (InC w).
      * apply (Old v). rewrite rd_es, !in_app_iff. auto.
    + rewrite Ex in Hy. apply rd_walk; [eapply reach_le; eassumption|eapply wf_key; eassumption|assumption].
  - intros e x bx v Rx. destruct (rd_reach3 _ _ Rx) as [(-> & p & Hp & ->)|[(-> & ->)|(Rx' & -> & _)]].
    + cbn. intros Lc Hx. destruct (rd_part_child _ _ _ Hp Hx) as (bj & cj & Hj & Hjx).
      eapply (wf_leaf _ Hwf); [eapply rd_child, rd_old_es, Hj| |exact Hjx]. rewrite (rd_lvl_old _ _ Hj). assumption.
    + rewrite rd_h_n. cbn. lia.
    + intros. eapply wf_leaf; eassumption.
  - intros e x Rx. rewrite rd_next. destruct (rd_reach _ _ Rx) as [[-> Hx]|[Rx' _]].
    + destruct Hx as [<-|Hx].
      * pose proof (wf_next _ Hwf _ _ (rd_olds_reach c (or_introl eq_refl))). lia.
      * apply ids_in in Hx. lia.
    + pose proof (wf_next _ Hwf _ _ Rx'). lia.
  - intros e x Rx. rewrite rd_dead. destruct (rd_reach _ _ Rx) as [[-> Hx]|[Rx' Nx]].
    + apply orb_false_iff. destruct Hx as [<-|Hx].
      * split; [apply (wf_dead _ Hwf _ _ (rd_olds_reach c (or_introl eq_refl)))|].
        pose proof rd_nodup_es as ND. rewrite rd_es, !map_app, rd_old in ND. apply nodup_tl in ND. cbn in ND.
        inversion ND as [|? ? N1 _]; subst. apply not_true_iff_false. intros Ex. apply existsb_exists in Ex as (y & Hy & Ey).
        apply Z.eqb_eq in Ey. subst y. apply N1, in_app_iff. now left.
      * apply ids_in in Hx. split; [apply Hfresh; lia|]. apply not_true_iff_false. intros Ex.
        apply existsb_exists in Ex as (y & Hy & Ey). apply Z.eqb_eq in Ey. subst y.
        pose proof (wf_next _ Hwf _ _ (rd_olds_reach x (or_intror Hy))). lia.
    + rewrite (wf_dead _ Hwf _ _ Rx'). cbn. apply not_true_iff_false. intros Ex.
      apply existsb_exists in Ex as (y & Hy & Ey). apply Z.eqb_eq in Ey. subst y. apply Nx. now right.
Qed.
Lemma rd_fresh : forall x, next s' <= x -> dead s' x = false.
Proof.
  intros x L. rewrite rd_next in L. rewrite rd_dead, Hfresh by lia. cbn. apply not_true_iff_false. intros Ex.
  apply existsb_exists in Ex as (y & Hy & Ey). apply Z.eqb_eq in Ey. subst y.
  pose proof (wf_next _ Hwf _ _ (rd_olds_reach x (or_intror Hy))). lia.
Qed.
Lemma rd_value : forall k, value s' k = value s k.
Proof.
  intros k. unfold value. rewrite rd_root, rd_H. rewrite <- rd_root at 1.
  pose proof rd_lvl_c as Lnc. pose proof (wf_lvl _ Hwf _ _ Rn) as Ldn.
  destruct (walk_total _ Hwf k (H s)) as (m & Em & _); [lia|]. rewrite Em.
  pose proof (walk_reach _ Hwf _ _ _ Em ltac:(lia)) as Rm.
  destruct (in_dec Z.eq_dec m (c :: l)) as [Ho|Ho].
  - pose proof (rd_olds_reach _ Ho) as Rm'. pose proof (reach_uniq _ Hwf _ _ _ Rm Rm') as Ed.
    rewrite Ed in Em |- *. destruct (rd_walk_old _ _ Em Ho) as (En & bm & Hm & Pm).
    cbn [walk]. rewrite rd_walk_above, En by lia. rewrite rd_h_n. cbn [ents].
    destruct (pick k (a ++ new ++ b)) as [[b' m']|] eqn:Pk.
    + cbn [option_map snd].
      apply (same_value a old b f rd_asc rd_K rd_A rd_N rd_old_ne parts lower ns rd_ok rd_C rd_ns rd_news_nodup
        (fun x => ents (h s' x))) with (e := (bm, m)) (e' := (b', m')); auto.
      * intros i p Hi. rewrite (rd_h_new _ _ Hi). reflexivity.
      * intros [be e] He. cbn. now destruct (rd_ab _ _ (or_intror He)) as (_ & _ & -> & _).
      * intros [be e] k' v He Hk'. apply (rd_K0 be e k' v); [rewrite rd_es, !in_app_iff; auto|assumption].
      * intros [be e] He. cbn. eapply wf_asc; [exact Hwf|]. eapply rd_child. rewrite rd_es, in_app_iff. right. eassumption.
    + exfalso. revert Pk. 
      assert (El : lastb (a ++ new ++ b) = lastb (a ++ old ++ b))
        by apply (all_lastb a old b f rd_asc rd_K rd_old_ne parts lower ns rd_ok rd_C rd_ns).
      apply asc_last_ble; [apply rd_all_asc| |].
      * intros N. apply app_eq_nil in N as [_ N]. apply app_eq_nil in N as [N _].
        pose proof rd_new_ns as M. rewrite N in M. discriminate.
      * rewrite El. pose proof (pick_in _ _ _ Pm) as Hi. pose proof (pick_ble _ _ _ Pm) as Bi.
        eapply leb_ble; [|exact Bi]. apply asc_last; [apply rd_asc|assumption].
  - rewrite (rd_walk k (H s) m) by (auto || lia). rewrite (rd_same _ _ Rm); auto.
    intros ->. pose proof (reach_uniq _ Hwf _ _ _ Rm Rn). lia.
Qed.
End Redo.
