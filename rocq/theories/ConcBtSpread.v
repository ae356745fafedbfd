(** The entries of neighbouring children spread over new children. *)
From Coq Require Import ZArith List Bool Arith Lia.
From Verif Require Import Base ConcBtModel ConcBtSpec ConcBtLists.
Import ListNotations.
Local Open Scope Z_scope.

Definition leb (a b : ext) : Prop := a = b \/ blt a b.
Lemma leb_ble : forall k a b, leb a b -> ble k a = true -> ble k b = true.
Proof. intros k a b [->|H] E; [assumption|eapply blt_ble; eassumption]. Qed.
Lemma blt_leb : forall a b c, blt a b -> leb b c -> blt a c.
Proof. intros a b c H [<-|E]; [assumption|eapply blt_trans; eassumption]. Qed.
Lemma leb_blt : forall a b c, leb a b -> blt b c -> blt a c.
Proof. intros a b c [->|E] H; [assumption|eapply blt_trans; eassumption]. Qed.
Lemma blt_irr : forall a, ~ blt a a.
Proof. intros [a|]; cbn; [lia|tauto]. Qed.
Lemma ble_leb : forall k b, ble k b = true <-> leb (Some k) b.
Proof. intros k [b|]; cbn; unfold leb; cbn; split; intro H; try reflexivity; auto. - destruct (Z.eq_dec k b); [left; congruence|right; lia]. - destruct H as [[= ->]|]; lia. Qed.

Lemma pick_after : forall k p e q e', asc (p ++ e :: q) -> In e' q -> pick k (p ++ e :: q) = Some e' -> fst e <k k.
Proof.
  intros k p e q e' H Hi E. destruct (ble k (fst e)) eqn:B; [|reflexivity]. exfalso.
  rewrite pick_app in E. apply asc_app in H as (_ & [H1 H2] & H3).
  destruct (pick k p) as [x|] eqn:P.
  - injection E as ->. apply pick_in in P. apply (blt_irr (fst e')). apply H3; [assumption|right; assumption].
  - cbn in E. rewrite B in E. injection E as ->. apply (blt_irr (fst e')). apply H1. assumption.
Qed.

Lemma in_combine_ex : forall A B (l : list A) (l' : list B) a, length l = length l' -> In a l -> exists b, In (a, b) (combine l l').
Proof.
  induction l as [|x l IH]; intros l' a E H; [destruct H|]. destruct l' as [|y l']; [discriminate|].
  destruct H as [<-|H]; [exists y; left; reflexivity|].
  destruct (IH l' a) as (b & Hb); [now injection E|assumption|]. exists b. right. assumption.
Qed.

Lemma bounds_length : forall z parts, length (bounds z parts) = length parts.
Proof. intros z; induction parts as [|x [|y t] IH]; cbn in *; [reflexivity|reflexivity|]. now rewrite IH. Qed.

Section Spread.
Variables (z : ext) (ns : list Z).

Lemma bounds_from : forall parts e, (forall x, In x parts -> x <> []) ->
  In e (combine (bounds z parts) ns) -> fst e = z \/ exists f, In f (concat parts) /\ fst f = fst e.
Proof.
  revert ns. induction ns as [|n ns' IH]; intros parts e Hx H.
  - destruct (bounds z parts); destruct H.
  - destruct parts as [|x [|y t]].
    + destruct H.
    + destruct H as [<-|H]; [now left|]. destruct ns'; destruct H.
    + destruct H as [<-|H].
      * right. destruct (lastb_in x) as (f & Hf & Ef); [apply Hx; left; reflexivity|].
        exists f. split; [apply in_app_iff; now left|assumption].
      * destruct (IH (y :: t) e) as [Ez|(f & Hf & Ef)]; [intros; apply Hx; now right|assumption|now left|].
        right. exists f. split; [apply in_app_iff; now right|assumption].
Qed.
End Spread.

Lemma bounds_asc : forall z ns parts, (forall x, In x parts -> x <> []) -> asc (concat parts) ->
  (forall e, In e (concat parts) -> leb (fst e) z) -> asc (combine (bounds z parts) ns).
Proof.
  intros z ns. induction ns as [|n ns IH]; intros parts Hx Ha Hz.
  - destruct (bounds z parts); exact I.
  - destruct parts as [|x [|y t]].
    + exact I.
    + cbn. destruct ns; cbn; tauto.
    + change (combine (bounds z (x :: y :: t)) (n :: ns)) with ((lastb x, n) :: combine (bounds z (y :: t)) ns).
      change (concat (x :: y :: t)) with (x ++ concat (y :: t)) in *.
      apply asc_app in Ha as (A1 & A2 & A3).
      destruct (lastb_in x) as (f & Hf & Ef); [apply Hx; left; reflexivity|].
      split.
      * intros e He. cbn [fst]. rewrite <- Ef.
        apply bounds_from in He; [|intros; apply Hx; now right].
        destruct He as [->|(g & Hg & <-)]; [|now apply A3].
        assert (Ny : y <> []) by (apply Hx; right; left; reflexivity).
        destruct y as [|g y]; [tauto|].
        assert (Hg : In g (concat ((g :: y) :: t))) by (left; reflexivity).
        eapply blt_leb; [now apply (A3 f g)|]. apply Hz. apply in_app_iff. now right.
      * apply IH; [intros; apply Hx; now right|assumption|]. intros e He. apply Hz, in_app_iff. now right.
Qed.

Lemma bounds_pick : forall z ns parts i p k v, (forall x, In x parts -> x <> []) -> asc (concat parts) ->
  (forall e, In e (concat parts) -> leb (fst e) z) ->
  In (i, p) (combine ns parts) -> In (Some k, v) p -> exists bb, pick k (combine (bounds z parts) ns) = Some (bb, i).
Proof.
  intros z ns. induction ns as [|n ns IH]; intros parts i p k v Hx Ha Hz Hi Hk; [destruct Hi|].
  destruct parts as [|x [|y t]].
  - destruct Hi.
  - destruct Hi as [[= -> ->]|Hi]; [|destruct ns; destruct Hi].
    exists z. cbn. replace (ble k z) with true; [reflexivity|]. symmetry. apply ble_leb.
    apply (Hz (Some k, v)). cbn. rewrite app_nil_r. assumption.
  - change (combine (bounds z (x :: y :: t)) (n :: ns)) with ((lastb x, n) :: combine (bounds z (y :: t)) ns).
    change (concat (x :: y :: t)) with (x ++ concat (y :: t)) in *.
    apply asc_app in Ha as (A1 & A2 & A3).
    destruct (lastb_in x) as (f & Hf & Ef); [apply Hx; left; reflexivity|].
    destruct Hi as [[= -> ->]|Hi].
    + exists (lastb p). cbn. replace (ble k (lastb p)) with true; [reflexivity|]. symmetry. apply ble_leb.
      apply (asc_last p (Some k, v)); assumption.
    + change (combine ns (y :: t)) with (combine ns (y :: t)) in Hi.
      destruct (IH (y :: t) i p k v) as (bb & E); try assumption; [intros; apply Hx; now right|intros e He; apply Hz, in_app_iff; now right|].
      exists bb. cbn [pick List.find fst]. 
      assert (B : lastb x <k k).
      { apply lt_blt. rewrite <- Ef. apply (A3 f (Some k, v)); [assumption|].
        apply in_concat. exists p. split; [|assumption]. eapply in_combine_r. exact Hi. }
      rewrite B. exact E.
Qed.

Lemma bounds_last : forall parts, parts <> [] -> bounds (lastb (last parts [])) parts = map lastb parts.
Proof.
  induction parts as [|x [|y t] IH]; intros H; [tauto|reflexivity|].
  change (last (x :: y :: t) []) with (last (y :: t) ([] : list ent)).
  cbn [map]. cbn [map] in IH. rewrite <- IH by discriminate. reflexivity.
Qed.

Lemma bounds_lastb : forall parts z ns, length ns = length parts -> parts <> [] -> lastb (combine (bounds z parts) ns) = z.
Proof.
  induction parts as [|x [|y t] IH]; intros z ns Hns Np; [tauto| |].
  - destruct ns as [|n [|n' ns]]; [discriminate|reflexivity|discriminate].
  - destruct ns as [|n ns]; [discriminate|].
    change (combine (bounds z (x :: y :: t)) (n :: ns)) with ([(lastb x, n)] ++ combine (bounds z (y :: t)) ns).
    rewrite lastb_app; [apply IH; [now injection Hns|discriminate]|].
    intros E. apply (f_equal (@length _)) in E. rewrite combine_length, bounds_length in E. cbn [length] in Hns, E. lia.
Qed.
Lemma part_id : forall (parts : list (list ent)) ns p, length ns = length parts -> In p parts -> exists i : Z, In (i, p) (combine ns parts).
Proof.
  induction parts as [|x t IH]; intros ns p Hns Hp; [destruct Hp|].
  destruct ns as [|n ns]; [discriminate|]. destruct Hp as [->|Hp]; [exists n; left; reflexivity|].
  destruct (IH ns p) as (i & Hi); [now injection Hns|assumption|]. exists i. right. assumption.
Qed.
Lemma asc_nodup : forall l, asc l -> NoDup (map fst l).
Proof.
  induction l as [|e t IH]; intros H; cbn; [constructor|]. destruct H as [H1 H2]. constructor; [|auto].
  intros Hi. apply in_map_iff in Hi as (g & Eg & Hg). specialize (H1 _ Hg). rewrite Eg in H1. now apply blt_irr in H1.
Qed.

(** ** One parent *)

Section Parent.
Variables (a old b : list ent) (f : Z -> list ent).
Let C := concat (map f (map snd old)).
Hypothesis Hasc : asc (a ++ old ++ b).
Hypothesis HK : forall bj cj k v, In (bj, cj) old -> In (Some k, v) (f cj) -> pick k (a ++ old ++ b) = Some (bj, cj).
Hypothesis HA : forall bj cj, In (bj, cj) old -> asc (f cj).
Hypothesis HN : forall bj cj v, In (bj, cj) old -> In (None, v) (f cj) -> bj = None.
Hypothesis Hold : old <> [].

Lemma in_C : forall e, In e C <-> exists bj cj, In (bj, cj) old /\ In e (f cj).
Proof.
  intros e. unfold C. rewrite in_concat. split.
  - intros (x & Hx & He). rewrite map_map in Hx. apply in_map_iff in Hx as ([bj cj] & <- & Hi). eauto.
  - intros (bj & cj & Hi & He). exists (f cj). split; [|assumption]. rewrite map_map.
    apply in_map_iff. exists (bj, cj). auto.
Qed.
Lemma old_last : forall e, In e old -> leb (fst e) (lastb old).
Proof. intros e He. apply asc_app in Hasc as (_ & H & _). apply asc_app in H as (H & _). now apply asc_last. Qed.
Lemma C_le : forall e, In e C -> leb (fst e) (lastb old).
Proof.
  intros [k v] He. apply in_C in He as (bj & cj & Hi & He). cbn [fst].
  pose proof (old_last _ Hi) as L. cbn in L. destruct k as [k|].
  - pose proof (HK _ _ _ _ Hi He) as P. apply pick_ble in P. cbn in P. apply ble_leb.
    eapply leb_ble; eassumption.
  - rewrite (HN _ _ _ Hi He) in L. assumption.
Qed.
Lemma C_gt : forall e ea, In e C -> In ea a -> blt (fst ea) (fst e).
Proof.
  intros [k v] ea He Ha. apply in_C in He as (bj & cj & Hi & He). cbn [fst].
  destruct k as [k|].
  - pose proof (HK _ _ _ _ Hi He) as P. apply lt_blt.
    apply in_split in Ha as (a1 & a2 & ->). rewrite <- app_assoc in P. cbn in P.
    pose proof Hasc as Q. rewrite <- app_assoc in Q. cbn in Q. eapply pick_after; [exact Q| |exact P].
    apply in_app_iff. right. apply in_app_iff. now left.
  - apply asc_app in Hasc as (_ & _ & H). pose proof (HN _ _ _ Hi He) as ->.
    apply (H ea (None, cj)); [assumption|apply in_app_iff; now left].
Qed.
Lemma C_asc : asc C.
Proof.
  unfold C.
  assert (G : forall o1 o2, old = o1 ++ o2 -> asc (concat (map f (map snd o2)))).
  { intros o1 o2. revert o1. induction o2 as [|[b1 c1] o2 IH]; intros o1 E; cbn; [exact I|].
    apply asc_app. split; [|split].
    - apply HA with b1. rewrite E. apply in_app_iff. right. left. reflexivity.
    - apply (IH (o1 ++ [(b1, c1)])). rewrite <- app_assoc. exact E.
    - intros [k v] [k' v'] H1 H2. cbn [fst].
      apply in_concat in H2 as (x & Hx & H2). rewrite map_map in Hx. apply in_map_iff in Hx as ([b2 c2] & <- & Hi2).
      cbn [snd] in H2.
      assert (I1 : In (b1, c1) old) by (rewrite E; apply in_app_iff; right; left; reflexivity).
      assert (I2 : In (b2, c2) old) by (rewrite E; apply in_app_iff; right; right; assumption).
      assert (L : blt b1 b2).
      { apply asc_app in Hasc as (_ & H & _). apply asc_app in H as (H & _). rewrite E in H.
        apply asc_app in H as (_ & [H _] & _). apply (H (b2, c2) Hi2). }
      destruct k as [k|]; [|rewrite (HN _ _ _ I1 H1) in L; destruct L].
      destruct k' as [k'|]; [|exact I].
      pose proof (pick_ble _ _ _ (HK _ _ _ _ I1 H1)) as B1. cbn in B1.
      pose proof (HK _ _ _ _ I2 H2) as P2.
      assert (B2 : b1 <k k').
      { rewrite E in P2. repeat rewrite <- app_assoc in P2. rewrite app_assoc in P2. cbn in P2.
        rewrite E in Hasc. pose proof Hasc as Q. repeat rewrite <- app_assoc in Q. rewrite app_assoc in Q. cbn in Q.
        eapply (pick_after k' _ (b1, c1)); [exact Q| |exact P2]. apply in_app_iff. now left. }
      apply lt_blt in B2. apply ble_leb in B1. exact (leb_blt _ _ _ B1 B2). }
  apply (G [] old). reflexivity.
Qed.

Variables (parts : list (list ent)) (lower : bool) (ns : list Z).
Hypothesis Hok : parts_ok parts = true.
Hypothesis HC : concat parts = C.
Hypothesis Hns : length ns = length parts.
Let z := if lower && negb (match b with [] => true | _ => false end)
         then match last parts [] with [] => fst (hd (None, 0) old) | x => lastb x end
         else lastb old.
Let new := combine (bounds z parts) ns.

Lemma parts_cases : parts = [[]] \/ (forall x, In x parts -> x <> []).
Proof.
  destruct parts as [|x [|y t]]; [discriminate|destruct x; [now left|]|].
  - right. intros e [<-|[]]. discriminate.
  - right. intros e He. cbn [parts_ok] in Hok. rewrite forallb_forall in Hok. specialize (Hok _ He). now destruct e.
Qed.
Lemma parts_ne : parts <> [].
Proof. intros E. rewrite E in Hok. discriminate. Qed.

Lemma last_concat : forall l : list (list ent), (forall x, In x l -> x <> []) -> l <> [] -> lastb (concat l) = lastb (last l []).
Proof.
  intros l Hl Hn. destruct (exists_last Hn) as (l' & x & ->). rewrite concat_app, last_last. cbn. rewrite app_nil_r.
  apply lastb_app. apply Hl. apply in_app_iff. right. left. reflexivity.
Qed.

Lemma hd_in : In (hd (None, 0) old) old.
Proof. destruct old; [tauto|left; reflexivity]. Qed.

Lemma z_cases : (z = lastb old) \/ (b <> [] /\ C <> [] /\ z = lastb C) \/ (b <> [] /\ C = [] /\ z = fst (hd (None, 0) old)).
Proof.
  unfold z. destruct lower; [|now left]. destruct b as [|b0 b']; [now left|]. cbn [andb negb].
  destruct parts_cases as [E|E].
  - right; right. rewrite <- HC, E. cbn. split; [discriminate|auto].
  - right; left. rewrite <- HC, last_concat by (try assumption; apply parts_ne).
    assert (L : last parts [] <> []) by (apply E, last_in, parts_ne).
    destruct (last parts []) eqn:EL; [tauto|]. split; [discriminate|]. split; [|reflexivity].
    intros Hn. apply concat_nil_Forall in Hn. rewrite Forall_forall in Hn.
    apply (E (last parts [])); [apply last_in, parts_ne|]. apply Hn, last_in, parts_ne.
Qed.
Lemma z1 : leb z (lastb old).
Proof.
  destruct z_cases as [->|[(_ & N & ->)|(_ & _ & ->)]]; [now left| |].
  - destruct (lastb_in C N) as (e & He & <-). now apply C_le.
  - apply old_last, hd_in.
Qed.
Lemma z2 : forall e, In e C -> leb (fst e) z.
Proof.
  intros e He. destruct z_cases as [->|[(_ & N & ->)|(_ & N & ->)]].
  - now apply C_le.
  - apply asc_last; [apply C_asc|assumption].
  - rewrite N in He. destruct He.
Qed.
Lemma z3 : forall ea, In ea a -> blt (fst ea) z.
Proof.
  intros ea Ha.
  assert (G : forall e, In e old -> blt (fst ea) (fst e)).
  { intros e He. apply asc_app in Hasc as (_ & _ & H). apply H; [assumption|]. apply in_app_iff. now left. }
  destruct z_cases as [->|[(_ & N & ->)|(_ & _ & ->)]].
  - destruct (lastb_in old Hold) as (e & He & <-). auto.
  - destruct (lastb_in C N) as (e & He & <-). now apply C_gt.
  - apply G, hd_in.
Qed.
Lemma z4 : (exists e, In e old /\ fst e = z) \/ (exists e, In e C /\ fst e = z).
Proof.
  destruct z_cases as [->|[(_ & N & ->)|(_ & _ & ->)]].
  - left. now apply lastb_in.
  - right. now apply lastb_in.
  - left. exists (hd (None, 0) old). split; [apply hd_in|reflexivity].
Qed.
Lemma z5 : b = [] -> z = lastb old.
Proof. intros Hb. destruct z_cases as [?|[(H & _)|(H & _)]]; [assumption|tauto|tauto]. Qed.

Lemma new_from : forall e, In e new -> fst e = z \/ exists f, In f C /\ fst f = fst e.
Proof.
  intros e He. destruct parts_cases as [E|E].
  - left. unfold new in He. rewrite E in He. destruct ns as [|n [|n' t]]; cbn in He; [tauto| |]; destruct He as [<-|[]]; reflexivity.
  - rewrite <- HC. eapply bounds_from; eassumption.
Qed.
Lemma new_asc : asc new.
Proof.
  destruct parts_cases as [E|E].
  - unfold new. rewrite E. destruct ns as [|n [|n' t]]; cbn; tauto.
  - apply bounds_asc; [assumption|rewrite HC; apply C_asc|rewrite HC; apply z2].
Qed.
Lemma new_gt : forall ea e, In ea a -> In e new -> blt (fst ea) (fst e).
Proof.
  intros ea e Ha He. destruct (new_from e He) as [->|(g & Hg & <-)]; [now apply z3|now apply C_gt].
Qed.
Lemma new_le : forall e, In e new -> leb (fst e) (lastb old).
Proof.
  intros e He. destruct (new_from e He) as [->|(g & Hg & <-)]; [apply z1|now apply C_le].
Qed.
Lemma new_ne : new <> [].
Proof.
  intros E. apply (f_equal (@length _)) in E. unfold new in E. rewrite combine_length, bounds_length, Hns, Nat.min_id in E.
  pose proof parts_ne. destruct parts; [tauto|discriminate].
Qed.
Lemma new_lastb : lastb new = z.
Proof. apply bounds_lastb; [assumption|apply parts_ne]. Qed.

Lemma all_asc : asc (a ++ new ++ b).
Proof.
  pose proof Hasc as H. apply asc_app in H as (A1 & A2 & A3). apply asc_app in A2 as (B1 & B2 & B3).
  apply asc_app. split; [assumption|]. split.
  - apply asc_app. split; [apply new_asc|]. split; [assumption|].
    intros e e' He He'. eapply leb_blt; [now apply new_le|].
    destruct (lastb_in old Hold) as (o & Ho & <-). now apply B3.
  - intros e e' He He'. apply in_app_iff in He' as [He'|He']; [now apply new_gt|].
    apply A3; [assumption|]. apply in_app_iff. now right.
Qed.
Lemma all_lastb : lastb (a ++ new ++ b) = lastb (a ++ old ++ b).
Proof.
  assert (Db : b = [] \/ b <> []) by (destruct b; [now left|right; discriminate]).
  destruct Db as [Eb|Nb].
  - rewrite Eb, !app_nil_r, !lastb_app by (assumption || apply new_ne). rewrite new_lastb. apply z5. exact Eb.
  - rewrite !app_assoc, !(lastb_app _ b) by assumption. reflexivity.
Qed.
Lemma new_key : forall i p k v, In (i, p) (combine ns parts) -> In (Some k, v) p ->
  exists bb, pick k (a ++ new ++ b) = Some (bb, i) /\ In (bb, i) new.
Proof.
  intros i p k v Hi Hk. destruct parts_cases as [E|E].
  { rewrite E in Hi. destruct ns as [|n [|n' t]]; cbn in Hi; [tauto| |]; destruct Hi as [[= <- <-]|[]]; destruct Hk. }
  destruct (bounds_pick z ns parts i p k v) as (bb & Eb); try assumption; [rewrite HC; apply C_asc|rewrite HC; apply z2|].
  assert (Ha : pick k a = None).
  { apply pick_none. intros e He. apply lt_blt. apply (C_gt (Some k, v)); [|assumption].
    rewrite <- HC. apply in_concat. exists p. split; [|assumption]. eapply in_combine_r; eassumption. }
  exists bb. rewrite !pick_app, Ha. unfold new. rewrite Eb. split; [reflexivity|]. eapply pick_in; eassumption.
Qed.
Lemma keep_out : forall k e, pick k (a ++ old ++ b) = Some e -> ~ In e old -> pick k (a ++ new ++ b) = Some e.
Proof.
  intros k e E Hn. rewrite !pick_app in *. destruct (pick k a); [assumption|].
  destruct (pick k old) eqn:Eo; [injection E as ->; apply pick_in in Eo; tauto|].
  replace (pick k new) with (@None ent); [assumption|]. symmetry. apply pick_none. intros g Hg.
  destruct (ble k (fst g)) eqn:B; [|reflexivity]. exfalso.
  pose proof (leb_ble _ _ _ (new_le g Hg) B) as B'.
  destruct (lastb_in old Hold) as (o & Ho & Eq). rewrite pick_none in Eo. specialize (Eo _ Ho). congruence.
Qed.
Lemma in_old_some : forall k e, pick k (a ++ old ++ b) = Some e -> In e old -> pick k a = None /\ pick k old = Some e.
Proof.
  intros k e E Hi. pose proof Hasc as H. apply asc_app in H as (A1 & A2 & A3). apply asc_app in A2 as (B1 & B2 & B3).
  rewrite !pick_app in E. destruct (pick k a) eqn:Ea.
  - injection E as ->. apply pick_in in Ea. exfalso. apply (blt_irr (fst e)). apply A3; [assumption|apply in_app_iff; now left].
  - split; [reflexivity|]. destruct (pick k old) eqn:Eo; [congruence|].
    apply pick_in in E. exfalso. apply (blt_irr (fst e)). now apply B3.
Qed.

(** Interior children: the parent has each one's last bound. *)
Definition inner := forall bj cj, In (bj, cj) old -> f cj <> [] /\ lastb (f cj) = bj.
Lemma inner_C : inner -> C <> [].
Proof.
  intros Hf N. pose proof hd_in as Hi. destruct (hd (None, 0) old) as [bj cj].
  destruct (Hf bj cj Hi) as [N' _]. destruct (f cj) as [|e t'] eqn:F; [tauto|].
  assert (G : In e C) by (apply in_C; exists bj, cj; rewrite F; cbn; auto). rewrite N in G. destruct G.
Qed.
Lemma inner_parts : inner -> forall x, In x parts -> x <> [].
Proof.
  intros Hf. destruct parts_cases as [Ep|]; [|assumption]. exfalso. apply (inner_C Hf). rewrite <- HC, Ep. reflexivity.
Qed.
Lemma inner_z : inner -> z = lastb (last parts []) /\ z = lastb C.
Proof.
  intros Hf.
  assert (Lz : lastb C = lastb old).
  { destruct (exists_last Hold) as (o' & [b1 c1] & Eold). unfold C. rewrite Eold.
    rewrite !map_app, concat_app. cbn. rewrite app_nil_r.
    assert (H1 : In (b1, c1) old) by (rewrite Eold; apply in_app_iff; right; left; reflexivity).
    destruct (Hf _ _ H1) as [H2 H3]. rewrite lastb_app by assumption. now rewrite lastb_snoc. }
  assert (Z : z = lastb C).
  { destruct z_cases as [->|[(_ & _ & ->)|(_ & N & _)]]; [congruence|reflexivity|]. now apply inner_C in N. }
  split; [|assumption]. rewrite Z, <- HC. apply last_concat; [now apply inner_parts|apply parts_ne].
Qed.
Lemma inner_bounds : inner -> bounds z parts = map lastb parts.
Proof. intros Hf. destruct (inner_z Hf) as [E _]. rewrite E. apply bounds_last, parts_ne. Qed.
Lemma inner_new : inner -> forall bb i, In (bb, i) new -> exists p, In (i, p) (combine ns parts) /\ lastb p = bb.
Proof.
  intros Hf bb i Hi. unfold new in Hi. rewrite inner_bounds in Hi by assumption. clear - Hi.
  revert ns Hi. induction parts as [|x t IH]; intros [|n m] Hi; cbn in Hi |- *; try tauto.
  destruct Hi as [[= <- <-]|Hi]; [exists x; auto|]. destruct (IH _ Hi) as (p & H1 & H2). exists p. auto.
Qed.

(** The same grandchild. *)
Lemma same_below : inner ->
  forall k bj cj, pick k (a ++ old ++ b) = Some (bj, cj) -> In (bj, cj) old ->
  exists bb i p, pick k (a ++ new ++ b) = Some (bb, i) /\ In (bb, i) new /\ In (i, p) (combine ns parts)
    /\ pick k p = pick k (f cj).
Proof.
  intros Hf k bj cj E Hi. destruct (in_old_some _ _ E Hi) as [Ea Eo].
  pose proof (inner_parts Hf) as Np. destruct (inner_z Hf) as [Zl Zc].
  assert (Po : pick k (f cj) = pick k C).
  { pose proof (pick_concat k (map fst old) (map f (map snd old)) (map snd old)) as PC.
    rewrite !map_length in PC. specialize (PC eq_refl eq_refl).
    replace (combine (map fst old) (map snd old)) with old in PC
      by (clear; induction old as [|[] ? IH]; cbn; congruence).
    rewrite Eo in PC. destruct PC as (p & Hp & Ep).
    - intros x Hx. rewrite map_map in Hx. apply in_map_iff in Hx as ([b1 c1] & <- & H1). now apply (Hf b1).
    - rewrite !map_map. apply map_ext_in. intros [b1 c1] H1. cbn. symmetry. now apply Hf.
    - apply C_asc.
    - fold C in Ep. rewrite <- Ep. f_equal. clear - Hp.
      induction (map snd old) as [|x t IH]; cbn in Hp; [destruct Hp|]. destruct Hp as [[= -> ->]|Hp]; auto. }
  pose proof (pick_concat k (bounds z parts) parts ns) as PC.
  rewrite bounds_length in PC. specialize (PC eq_refl Hns Np (inner_bounds Hf)).
  rewrite HC in PC. specialize (PC C_asc). fold new in PC.
  destruct (pick k new) as [[bb i]|] eqn:En.
  - destruct PC as (p & Hp & Ep). exists bb, i, p. rewrite !pick_app, Ea, En. ands; auto.
    + now apply pick_in in En.
    + congruence.
  - exfalso. rewrite pick_none in En. destruct (lastb_in new new_ne) as (g & Hg & Eg).
    specialize (En _ Hg). rewrite Eg, new_lastb in En.
    assert (B : ble k z = true); [|congruence].
    pose proof (pick_ble _ _ _ Eo) as B. cbn in B. rewrite Zc.
    destruct (Hf _ _ Hi) as [N1 L1]. destruct (lastb_in _ N1) as (g' & Hg' & Eg').
    apply leb_ble with bj; [|assumption]. rewrite <- L1, <- Eg'. apply asc_last; [apply C_asc|]. apply in_C. eauto.
Qed.

(** Leaves: the same value. *)
Lemma same_value : NoDup ns -> forall g : Z -> list ent,
  (forall i p, In (i, p) (combine ns parts) -> g i = p) ->
  (forall e, In e b -> g (snd e) = f (snd e)) ->
  (forall e k v, In e b -> In (Some k, v) (f (snd e)) -> pick k (a ++ old ++ b) = Some e) ->
  forall k e e', pick k (a ++ old ++ b) = Some e -> In e old -> pick k (a ++ new ++ b) = Some e' ->
  (forall e, In e (old ++ b) -> asc (f (snd e))) ->
  look k (g (snd e')) = look k (f (snd e)).
Proof.
  intros Nn g Hg Hb Kb k [bj cj] e' E Hi E' Hasc'. destruct (in_old_some _ _ E Hi) as [Ea Eo].
  assert (InC : forall v, In (Some k, v) (f cj) <-> In (Some k, v) C).
  { intros v. rewrite in_C. split; [eauto|]. intros (b1 & c1 & H1 & H2). pose proof (HK _ _ _ _ H1 H2). congruence. }
  assert (InP : forall v, In (Some k, v) C -> exists i p, In (i, p) (combine ns parts) /\ In (Some k, v) p /\ snd e' = i).
  { intros v Hv. rewrite <- HC in Hv. apply in_concat in Hv as (p & Hp & Hv).
    destruct (part_id parts ns p Hns Hp) as (i & H1).
    exists i, p. split; [assumption|]. split; [assumption|].
    destruct (new_key _ _ _ _ H1 Hv) as (bb & E1 & _). rewrite E' in E1. now injection E1 as ->. }
  assert (Ap : forall i p, In (i, p) (combine ns parts) -> asc p).
  { intros i p H1. pose proof C_asc as AC. rewrite <- HC in AC. apply in_combine_r in H1.
    apply in_split in H1 as (p1 & p2 & Ep). rewrite Ep, concat_app in AC. apply asc_app in AC as (_ & AC & _).
    now apply asc_app in AC as (AC & _). }
  pose proof (Hasc' (bj, cj) ltac:(apply in_app_iff; now left)) as Af. cbn [snd] in Af.
  cbn [snd]. pose proof E' as E''. rewrite !pick_app, Ea in E''.
  destruct (pick k new) as [[bb i]|] eqn:En.
  - injection E'' as <-. cbn [snd] in *. apply pick_in in En. unfold new in En.
    assert (exists p, In (i, p) (combine ns parts)) as (p & Hp).
    { apply in_combine_r in En. apply in_combine_ex; assumption. }
    rewrite (Hg _ _ Hp). apply look_ext; [now apply (Ap i)|assumption|].
    intros v. rewrite InC. split.
    + intros Hv. rewrite <- HC. apply in_concat. exists p. split; [eapply in_combine_r; eassumption|assumption].
    + intros Hv. destruct (InP _ Hv) as (i' & p' & H1 & H2 & <-). rewrite <- (Hg _ _ Hp), (Hg _ _ H1). assumption.
  - apply pick_in in E''. rewrite Hb by assumption.
    apply look_ext; [apply Hasc', in_app_iff; now right|assumption|].
    intros v. split.
    + intros Hv. pose proof (Kb _ _ _ E'' Hv) as P. rewrite E in P. injection P as <-. assumption.
    + intros Hv. exfalso. apply InC, InP in Hv as (i & p & H1 & H2 & _).
      destruct (new_key _ _ _ _ H1 H2) as (bb & E1 & Hin). rewrite !pick_app, Ea, En in E1.
      apply pick_in in E1. pose proof all_asc as AA. apply asc_app in AA as (_ & AA & _). apply asc_app in AA as (_ & _ & AA).
      apply (blt_irr bb). exact (AA _ _ Hin E1).
Qed.
End Parent.
