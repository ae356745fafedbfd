(** * Proofs about the repair of an interior node. *)
From Coq Require Import ZArith List Bool Arith Lia.
From Verif Require Import Base RepairModel RepairSpec.
Import ListNotations.

Lemma orig_find : forall l i,
  orig_key (map (fun e => (snd e, fst e)) l) i =
  match find (fun e => Nat.eqb (snd e) i) (rev l) with Some e => Some (fst e) | None => None end.
Proof.
  induction l as [|[k j] l IH]; intros i; [reflexivity|]. cbn [map orig_key rev fst snd].
  rewrite IH. clear IH. induction (rev l) as [|[k' j'] r IH]; cbn [find app snd fst].
  - now destruct (Nat.eqb j i).
  - destruct (Nat.eqb j' i); [reflexivity|exact IH].
Qed.

Lemma sibling_ok d h n r : live_right d h (n_next n) r -> forall f, h <= f -> true_sibling f d n = Ok r.
Proof.
  intros H. remember (n_next n) as x eqn:E. revert n E.
  induction H as [h|h i n0 H1 H2|h i n0 r H1 H2 H3 IH]; intros n E f Hf; destruct f as [|f]; try lia;
    cbn [true_sibling]; rewrite <- E; try reflexivity.
  - unfold rd. rewrite H1. cbn [bind]. now rewrite H2.
  - unfold rd. rewrite H1. cbn [bind]. rewrite H2. apply IH; [reflexivity|lia].
Qed.

Lemma chain_in d a l e c : chain d a l e -> In c l -> d (fst c) = Some (snd c).
Proof. induction 1; intros []; subst; auto. Qed.
Lemma chain_app d a l1 l2 e : chain d a (l1 ++ l2) e <-> exists m, chain d a l1 m /\ chain d m l2 e.
Proof.
  revert a. induction l1 as [|[i n] l IH]; intros a; cbn [app]; split.
  - intros H. exists a. split; [constructor|assumption].
  - intros (m & H1 & H2). inversion H1; now subst.
  - intros H. inversion H; subst. match goal with X : chain d _ (l ++ l2) _ |- _ => apply IH in X; destruct X as (m & H1 & H2) end. exists m. split; [|assumption]. now constructor.
  - intros (m & H1 & H2). inversion H1; subst. constructor; [assumption|]. apply IH. eauto.
Qed.
Lemma chain_ext d d' a l e : chain d a l e -> (forall c, In c l -> d' (fst c) = Some (snd c)) -> chain d' a l e.
Proof.
  induction 1; intros HX; constructor.
  - apply (HX (i, n)). now left.
  - apply IHchain. intros c Hc. apply HX. now right.
Qed.
Lemma chain_head d a l e : chain d a l e -> l <> [] -> a = option_map fst (head l).
Proof. destruct 1; [congruence|reflexivity]. Qed.

(** The scan ends. *)
Definition scan1 (r : Z * bool) (c : nat * node) : Z * bool :=
  if negb (n_del (snd c)) && negb (is_nil (n_ents (snd c))) then (last_key (snd c), true) else r.
Lemma scan_ok d sfc : forall l i n a e lk b, chain d a ((i, n) :: l) e ->
  (forall s, sfc = Some s -> ~ In s (map fst l)) ->
  (e = None \/ exists s, e = Some s /\ sfc = Some s /\ exists m, d s = Some m) ->
  forall f, length l <= f ->
    scan f d sfc n lk b = Ok (fst (fold_left scan1 ((i, n) :: l) (lk, b)), snd (fold_left scan1 ((i, n) :: l) (lk, b)), e).
Proof.
  induction l as [|[j m] l IH]; intros i n a e lk b HC HS HE f Hf;
    inversion HC as [|i' n' l' e' Hd HC2]; subst; clear HC.
  - inversion HC2 as [e' Hn|]; subst. cbn [fold_left].
    assert (X : forall (r : Z * bool),
       match n_next n with
       | None => Ok (fst r, snd r, None)
       | Some x => let* cx := rd d x in
           if match sfc with Some s => s =? x | None => false end then Ok (fst r, snd r, Some x)
           else match f with O => NoFuel | S f => scan f d sfc cx (fst r) (snd r) end
       end = Ok (fst r, snd r, n_next n)).
    { intros r. destruct (n_next n) as [x|]; [|reflexivity].
      destruct HE as [HE|(s & H1 & H2 & m & H3)]; [discriminate|]. injection H1 as ->.
      unfold rd. rewrite H3. cbn [bind]. now rewrite H2, Nat.eqb_refl. }
    unfold scan1. cbn [snd].
    destruct f; cbn [scan]; destruct (negb (n_del n) && negb (is_nil (n_ents n))); cbn [fst snd];
      first [apply (X (last_key n, true))|apply (X (lk, b))].
  - inversion HC2 as [|j' m' l' e' Hd2 HC3 Hnx]; subst. destruct f as [|f]; [cbn in Hf; lia|].
    assert (Es : match sfc with Some s => s =? j | None => false end = false).
    { destruct sfc as [s|]; [|reflexivity]. apply Nat.eqb_neq. intros ->. apply (HS j eq_refl). now left. }
    assert (HI : forall s, sfc = Some s -> ~ In s (map fst l)) by (intros s E H; apply (HS s E); now right).
    assert (Hf2 : length l <= f) by (cbn in Hf; lia).
    assert (X : forall r, scan f d sfc m (fst r) (snd r) =
       Ok (fst (fold_left scan1 ((j, m) :: l) r), snd (fold_left scan1 ((j, m) :: l) r), e)).
    { intros [lk0 b0]. cbn [fst snd]. apply (IH j m (Some j) e lk0 b0); auto. now constructor. }
    change (fold_left scan1 ((i, n) :: (j, m) :: l) (lk, b)) with (fold_left scan1 ((j, m) :: l) (scan1 (lk, b) (i, n))).
    rewrite <- X. unfold scan1. cbn [snd].
    cbn [scan]. rewrite <- Hnx. unfold rd. rewrite Hd2. cbn [bind]. rewrite Es.
    destruct (negb (n_del n) && negb (is_nil (n_ents n))); reflexivity.
Qed.

(** ** The walk over the children of a parent. *)
Definition wants (x : wctx) (ch : node) (c : nat) : bool :=
  negb (rightmost ch) &&
  match orig_key (w_orig x) c with
  | Some _ => true
  | None => negb (is_nil (n_ents ch)) && (w_edge x || Z.leb (last_key ch) (w_last x))
  end.
Definition key_of (x : wctx) (c : nat * node) : Z :=
  match n_ents (snd c) with
  | [] => match orig_key (w_orig x) (fst c) with Some k => k | None => 0%Z end
  | _ => last_key (snd c)
  end.
Definition room (x : wctx) (s : wst) : wst :=
  if Nat.leb (w_cap x) (length (n_ents (snd (s_cur s)))) then
    match s_ids s with
    | i :: r => Wst (s_disk s) r (i, Nd false (n_level (snd (s_cur s))) [] None (n_next (snd (s_cur s))) false false)
                    ((fst (s_cur s), set_next (Some i) (snd (s_cur s))) :: s_done s)
    | [] => s
    end
  else s.
Definition take (x : wctx) (s : wst) (pre : option (nat * node)) (c : nat * node) : wst * option (nat * node) :=
  let s1 := room x s in
  if n_del (snd c) then
    match pre with
    | Some (pi, pn) => (Wst (dput (s_disk s1) pi (set_mine (set_next (n_next (snd c)) pn))) (s_ids s1) (s_cur s1) (s_done s1),
                        Some (pi, set_mine (set_next (n_next (snd c)) pn)))
    | None => (s1, None)
    end
  else (on_cur (insert_last (key_of x c) (fst c)) s1, Some c).

Lemma walk_take f x s pre c ch :
  s_disk s c = Some ch -> wants x ch c = true -> s_ids s <> [] ->
  walk (S f) x s pre c =
  match n_next ch with
  | None => Ok (fst (take x s pre (c, ch)), n_del ch)
  | Some nx => if match w_stop x with Some y => Nat.eqb y nx | None => false end
               then Ok (fst (take x s pre (c, ch)), true)
               else walk f x (fst (take x s pre (c, ch))) (snd (take x s pre (c, ch))) nx
  end.
Proof.
  intros Hd HW HI. cbn [walk]. unfold rd. rewrite Hd. cbn [bind].
  unfold wants in HW. apply andb_true_iff in HW. destruct HW as [HR HW]. unfold rightmost in HR.
  apply negb_true_iff in HR. rewrite HR.
  assert (F1 : negb (w_edge x) && match orig_key (w_orig x) c with Some _ => false | None => true end && Z.ltb (w_last x) (last_key ch) = false).
  { destruct (orig_key (w_orig x) c); [now rewrite andb_false_r|]. destruct (w_edge x); [reflexivity|].
    cbn. cbn in HW. apply andb_true_iff in HW. destruct HW as [_ HW]. apply Z.ltb_ge. lia. }
  assert (F2 : negb (w_edge x) && match orig_key (w_orig x) c with Some _ => false | None => true end && is_nil (n_ents ch) = false).
  { destruct (orig_key (w_orig x) c); [now rewrite andb_false_r|]. destruct (is_nil (n_ents ch)); [discriminate|].
    now rewrite andb_false_r. }
  rewrite F1, F2.
  assert (F3 : negb (n_del ch) && is_nil (n_ents ch) && match orig_key (w_orig x) c with Some _ => false | None => true end = false).
  { destruct (orig_key (w_orig x) c); [now rewrite andb_false_r|]. destruct (is_nil (n_ents ch)); [discriminate|].
    now rewrite andb_false_r. }
  rewrite F3.
  assert (F4 : (if is_nil (n_ents ch) then match orig_key (w_orig x) c with Some k => k | None => last_key ch end else last_key ch) = key_of x (c, ch)).
  { unfold key_of. cbn [snd fst]. destruct (n_ents ch) eqn:E; [|reflexivity]. cbn [is_nil].
    destruct (orig_key (w_orig x) c); [reflexivity|]. unfold last_key. now rewrite E. }
  rewrite F4.
  assert (F5 : (if w_cap x <=? length (n_ents (snd (s_cur s)))
                then match s_ids s with
                     | [] => s
                     | i :: r => Wst (s_disk s) r (i, Nd false (n_level (snd (s_cur s))) [] None (n_next (snd (s_cur s))) false false)
                                     ((fst (s_cur s), set_next (Some i) (snd (s_cur s))) :: s_done s)
                     end else s) = room x s) by reflexivity.
  rewrite F5. unfold take. cbn [snd fst].
  destruct (s_ids s) as [|i r]; [congruence|].
  destruct (w_cap x <=? length (n_ents (snd (s_cur s)))); destruct (n_del ch); cbn [negb];
    try (destruct pre as [[pi pn]|]); cbn [fst snd]; destruct (n_next ch); reflexivity.
Qed.

Fixpoint linked (l : list (nat * node)) (e : option nat) : Prop :=
  match l with
  | [] => True
  | q :: r => n_next (snd q) = match r with [] => e | q2 :: _ => Some (fst q2) end /\ linked r e
  end.
Lemma linked_snoc l a b e : linked (l ++ [a]) e -> fst a = fst b ->
  linked (l ++ [b]) (n_next (snd b)).
Proof.
  intros H E. induction l as [|q l IH]; cbn in *; [auto|]. destruct H as [H1 H2]. split; [|auto].
  rewrite H1. destruct l; cbn; [now rewrite E|reflexivity].
Qed.
Lemma linked_more l a b e : linked (l ++ [a]) e -> n_next (snd a) = Some (fst b) -> linked (l ++ [a; b]) (n_next (snd b)).
Proof.
  intros H E. induction l as [|q l IH]; cbn in *; [auto|]. destruct H as [H1 H2]. split; [|auto].
  rewrite H1. destruct l; reflexivity.
Qed.

Lemma linked_last l a e : linked (l ++ [a]) e -> n_next (snd a) = e.
Proof. induction l as [|q l IH]; cbn; intros []; auto. Qed.

Definition pars (s : wst) : list (nat * node) := rev (s_done s) ++ [s_cur s].

Record winv (x : wctx) (d : disk) (pid : nat) (ids0 : list nat) (lvl : nat) (pnext start : option nat)
            (done : list (nat * node)) (s : wst) (pre : option (nat * node)) (z : option nat) : Prop := WInv {
  wi_ids : pid :: ids0 = map fst (pars s) ++ s_ids s;
  wi_link : linked (pars s) pnext;
  wi_kind : forall q, In q (pars s) -> n_leaf (snd q) = false /\ n_level (snd q) = lvl /\ n_del (snd q) = false /\ n_edge (snd q) = None;
  wi_full : forall q, In q (s_done s) -> length (n_ents (snd q)) = w_cap x;
  wi_cur : length (n_ents (snd (s_cur s))) <= w_cap x;
  wi_ents : flat_map (fun q => n_ents (snd q)) (pars s) = map (fun c => (key_of x c, fst c)) (live done);
  wi_few : length (s_done s) <= length done;
  wi_kids : exists cs, Forall2 relinked (live done) cs /\ chain (s_disk s) start cs z /\
              pre = match rev cs with [] => None | c :: _ => Some c end;
  wi_tail : forall l0 c, done = l0 ++ [c] -> n_del (snd c) = false ->
              exists r, n_ents (snd (s_cur s)) = r ++ [(key_of x c, fst c)];
  wi_same : forall i, ~ In i (map fst done) -> s_disk s i = d i }.

Lemma room_inv x d pid ids0 lvl pnext start done s pre z :
  0 < w_cap x -> s_ids s <> [] ->
  winv x d pid ids0 lvl pnext start done s pre z ->
  s_disk (room x s) = s_disk s /\ length (n_ents (snd (s_cur (room x s)))) < w_cap x /\
  length (s_done (room x s)) <= S (length done) /\
  pid :: ids0 = map fst (pars (room x s)) ++ s_ids (room x s) /\
  linked (pars (room x s)) pnext /\
  (forall q, In q (pars (room x s)) -> n_leaf (snd q) = false /\ n_level (snd q) = lvl /\ n_del (snd q) = false /\ n_edge (snd q) = None) /\
  (forall q, In q (s_done (room x s)) -> length (n_ents (snd q)) = w_cap x) /\
  flat_map (fun q => n_ents (snd q)) (pars (room x s)) = map (fun c => (key_of x c, fst c)) (live done).
Proof.
  intros HC HN []. unfold room.
  destruct (Nat.leb_spec (w_cap x) (length (n_ents (snd (s_cur s))))) as [H|H].
  2: { ands; auto. }
  destruct (s_ids s) as [|i r] eqn:Ei; [congruence|]. unfold pars in *. cbn [s_disk s_cur s_done s_ids snd fst rev] in *.
  ands.
  - reflexivity.
  - cbn. assumption.
  - cbn [length]. lia.
  - rewrite wi_ids0, !map_app. cbn. now rewrite <- !app_assoc.
  - rewrite <- app_assoc, <- (linked_last _ _ _ wi_link0).
    match goal with |- linked (?u ++ [?a] ++ [?b]) _ => change (linked (u ++ [a; b]) (n_next (snd b))) end.
    apply (linked_more _ _ _ (Some i)); [|reflexivity].
    exact (linked_snoc _ _ (fst (s_cur s), set_next (Some i) (snd (s_cur s))) _ wi_link0 eq_refl).
  - intros q Hq. rewrite <- app_assoc, in_app_iff in Hq. destruct Hq as [Hq|[<-|[<-|[]]]]; cbn [snd].
    + apply wi_kind0. apply in_or_app. now left.
    + apply (wi_kind0 (s_cur s)). apply in_or_app. right. now left.
    + destruct (wi_kind0 (s_cur s)) as (_ & X & _). { apply in_or_app. right. now left. } cbn. auto.
  - intros q [<-|Hq]; cbn [snd]; [cbn; lia|auto].
  - rewrite <- wi_ents0, !flat_map_app. cbn. now rewrite !app_nil_r.
Qed.

Lemma live_snoc l c : live (l ++ [c]) = live l ++ (if n_del (snd c) then [] else [c]).
Proof. unfold live. rewrite filter_app. cbn. now destruct (n_del (snd c)). Qed.

Lemma Forall2_snoc {A B} (R : A -> B -> Prop) l m a b : Forall2 R l m -> R a b -> Forall2 R (l ++ [a]) (m ++ [b]).
Proof. intros H H1. apply Forall2_app; [assumption|repeat constructor; assumption]. Qed.

Lemma relinked_ids l m : Forall2 relinked l m -> map fst l = map fst m.
Proof. induction 1; cbn; [reflexivity|]. f_equal; [apply H|assumption]. Qed.

Lemma live_sub l c : In c (live l) -> In c l.
Proof. unfold live. rewrite filter_In. tauto. Qed.
Lemma live_nodup l : NoDup (map fst l) -> NoDup (map fst (live l)).
Proof.
  induction l as [|c l IH]; intros H; [assumption|]. cbn in *. inversion H; subst.
  destruct (n_del (snd c)); cbn; auto. constructor; auto. intros X. apply in_map_iff in X.
  destruct X as (y & E & X). apply live_sub in X. apply H2. rewrite <- E. now apply in_map.
Qed.

Lemma chain_dput d a l e i n : chain d a l e -> ~ In i (map fst l) -> chain (dput d i n) a l e.
Proof.
  intros H HN. eapply chain_ext; [exact H|]. intros c Hc. unfold dput.
  destruct (Nat.eqb_spec (fst c) i) as [E|E]; [exfalso; apply HN; rewrite <- E; now apply in_map|].
  eapply chain_in; eassumption.
Qed.

Lemma take_inv x d pid ids0 lvl pnext start done s pre c ch :
  0 < w_cap x -> s_ids s <> [] -> NoDup (map fst (done ++ [(c, ch)])) -> d c = Some ch ->
  (n_del ch = true -> live done <> []) ->
  winv x d pid ids0 lvl pnext start done s pre (Some c) ->
  winv x d pid ids0 lvl pnext start (done ++ [(c, ch)]) (fst (take x s pre (c, ch))) (snd (take x s pre (c, ch))) (n_next ch).
Proof.
  intros HC HN HD Hd HL HI.
  destruct (room_inv _ _ _ _ _ _ _ _ _ _ _ HC HN HI) as (R1 & R2 & R3 & R4 & R5 & R6 & R7 & R8).
  destruct HI. destruct wi_kids0 as (cs & K1 & K2 & K3).
  rewrite map_app in HD. cbn in HD.
  assert (Hc : ~ In c (map fst done)).
  { apply NoDup_remove_2 in HD. now rewrite app_nil_r in HD. }
  assert (HD' : NoDup (map fst done)) by (apply NoDup_remove_1 in HD; now rewrite app_nil_r in HD).
  unfold take. cbn [snd fst]. destruct (n_del ch) eqn:Ed.
  - destruct (rev cs) as [|[pi pn] rcs] eqn:Er.
    { exfalso. apply (HL eq_refl). destruct (live done); [reflexivity|]. inversion K1; subst. cbn in Er. apply app_eq_nil in Er. destruct Er. discriminate. }
    subst pre. assert (Ecs : cs = rev rcs ++ [(pi, pn)]) by (rewrite <- (rev_involutive cs), Er; reflexivity).
    assert (Hids := relinked_ids _ _ K1).
    assert (HNc : NoDup (map fst cs)) by (rewrite <- Hids; now apply live_nodup).
    assert (Hpi : In pi (map fst done)).
    { assert (X : In pi (map fst (live done))) by (rewrite Hids, Ecs, map_app, in_app_iff; cbn; tauto).
      apply in_map_iff in X. destruct X as (y & <- & X). apply in_map. now apply live_sub. }
    cbn [fst snd]. constructor; cbn [s_disk s_ids s_cur s_done]; unfold pars in *; cbn [s_disk s_ids s_cur s_done]; auto.
    + now apply Nat.lt_le_incl.
    + rewrite live_snoc. cbn [snd]. now rewrite Ed, app_nil_r.
    + rewrite app_length. cbn. lia.
    + exists (rev rcs ++ [(pi, set_mine (set_next (n_next ch) pn))]). ands.
      * rewrite live_snoc. cbn [snd]. rewrite Ed, app_nil_r. rewrite Ecs in K1.
        apply Forall2_app_inv_r in K1. destruct K1 as (l1 & l2 & K4 & K5 & K6). rewrite K6.
        inversion K5 as [|a b la lb K7 K8]; subst. inversion K8; subst.
        apply Forall2_app; [assumption|]. constructor; [|constructor]. exact K7.
      * rewrite R1. rewrite Ecs in K2. apply chain_app in K2. destruct K2 as (m & K4 & K5).
        rewrite Ecs, map_app in HNc. cbn in HNc. apply NoDup_remove_2 in HNc. rewrite app_nil_r in HNc.
        apply chain_app. exists m. split; [now apply chain_dput|].
        inversion K5; subst. constructor; [unfold dput; now rewrite Nat.eqb_refl|]. cbn. constructor.
      * rewrite rev_app_distr. reflexivity.
    + intros l0 c0 E E2. apply app_inj_tail in E. destruct E as [_ <-]. cbn in E2. congruence.
    + rewrite R1. intros i Hi. unfold dput. rewrite map_app, in_app_iff in Hi.
      destruct (Nat.eqb_spec i pi) as [->|]; [tauto|]. apply wi_same0. tauto.
  - cbn [fst snd]. constructor; unfold on_cur, pars in *; cbn [s_disk s_ids s_cur s_done snd fst] in *.
    + rewrite R4, !map_app. reflexivity.
    + clear - R5. induction (rev (s_done (room x s))) as [|q l IH]; cbn in *; [auto|]. destruct R5 as [H1 H2].
      split; [|auto]. rewrite H1. destruct l; reflexivity.
    + intros q Hq. apply in_app_iff in Hq. destruct Hq as [Hq|[<-|[]]].
      * apply R6. apply in_or_app. now left.
      * cbn. apply (R6 (s_cur (room x s))). apply in_or_app. right. now left.
    + assumption.
    + cbn. rewrite app_length. cbn. lia.
    + rewrite live_snoc. cbn [snd]. rewrite Ed, map_app, <- R8, !flat_map_app. cbn. now rewrite !app_nil_r, app_assoc.
    + rewrite app_length. cbn. lia.
    + exists (cs ++ [(c, ch)]). ands.
      * rewrite live_snoc. cbn [snd]. rewrite Ed. apply Forall2_snoc; [assumption|]. unfold relinked. auto 10.
      * rewrite R1. apply chain_app. exists (Some c). split; [assumption|]. constructor; [|constructor].
        rewrite wi_same0; assumption.
      * now rewrite rev_app_distr.
    + intros l0 c0 E E2. apply app_inj_tail in E. destruct E as [_ <-]. cbn. eauto.
    + rewrite R1. intros i Hi. apply wi_same0. rewrite map_app, in_app_iff in Hi. tauto.
Qed.

Lemma nodup_prefix {A} (u v : list A) : NoDup (u ++ v) -> NoDup u.
Proof.
  revert u. induction v as [|y v IH]; intros u H; [now rewrite app_nil_r in H|].
  apply NoDup_remove_1 in H. auto.
Qed.

(** The walk over [body]: it arrives at the child after it, or stops there. *)
Lemma walk_body x d pid ids0 lvl pnext start : 0 < w_cap x ->
  forall body done s pre a e,
  chain d a body e ->
  NoDup (map fst (done ++ body)) ->
  (forall c, In c body -> wants x (snd c) (fst c) = true) ->
  (forall y, w_stop x = Some y -> ~ In y (map fst body)) ->
  (forall l1 c l2, body = l1 ++ c :: l2 -> n_del (snd c) = true -> live (done ++ l1) <> []) ->
  length done + length body < length ids0 ->
  winv x d pid ids0 lvl pnext start done s pre a ->
  exists s' pre', winv x d pid ids0 lvl pnext start (done ++ body) s' pre' e /\
   (body <> [] -> forall z, w_stop x = Some z -> e = Some z -> forall i, a = Some i -> forall f, length body <= f ->
      walk f x s pre i = Ok (s', true)) /\
   (w_stop x <> e \/ e = None \/ w_stop x = None -> forall i z, a = Some i -> e = Some z -> forall f, walk (length body + f) x s pre i = walk f x s' pre' z).
Proof.
  intros HC. induction body as [|[c ch] body IH]; intros done s pre a e HA HN HW HST HL HS HI.
  - exists s, pre. rewrite app_nil_r. inversion HA; subst. ands; [assumption|congruence|].
    intros _ i z Ea Ee f. cbn. congruence.
  - inversion HA as [|c' ch' b' e' Hd HA2]; subst.
    assert (HDs : s_disk s c = Some ch).
    { rewrite (wi_same _ _ _ _ _ _ _ _ _ _ _ HI); [assumption|]. rewrite map_app in HN. cbn in HN.
      apply NoDup_remove_2 in HN. rewrite in_app_iff in HN. tauto. }
    assert (HIDS : s_ids s <> []).
    { assert (X := f_equal (@length nat) (wi_ids _ _ _ _ _ _ _ _ _ _ _ HI)). unfold pars in X.
      rewrite app_length, map_length, app_length, rev_length in X. cbn in X.
      assert (Y := wi_few _ _ _ _ _ _ _ _ _ _ _ HI). intros E. rewrite E in X. cbn in X, HS. lia. }
    assert (HT := take_inv x d pid ids0 lvl pnext start done s pre c ch HC HIDS).
    assert (HN1 : NoDup (map fst (done ++ [(c, ch)]))).
    { apply (nodup_prefix _ (map fst body)). rewrite <- map_app, <- app_assoc. exact HN. }
    specialize (HT HN1).
    specialize (HT Hd).
    assert (HL0 : n_del ch = true -> live done <> []).
    { intros E. specialize (HL [] (c, ch) body eq_refl E). now rewrite app_nil_r in HL. }
    specialize (HT HL0 HI).
    destruct body as [|[c2 ch2] body].
    { inversion HA2; subst. exists (fst (take x s pre (c, ch))), (snd (take x s pre (c, ch))). ands; [exact HT| |].
      - intros _ z Hz He i Ei f Hf. injection Ei as <-. destruct f as [|f]; [cbn in Hf; lia|].
        rewrite (walk_take f x s pre c ch HDs (HW _ (or_introl eq_refl)) HIDS).
        now rewrite Hz, He, Nat.eqb_refl.
      - intros HQ i z Ei Ez f. injection Ei as <-. cbn [length Nat.add].
        rewrite (walk_take _ x s pre c ch HDs (HW _ (or_introl eq_refl)) HIDS). rewrite Ez in *.
        destruct (w_stop x) as [y|]; [|reflexivity].
        destruct (Nat.eqb_spec y z) as [->|]; [|reflexivity]. intuition congruence. }
    destruct (IH (done ++ [(c, ch)]) (fst (take x s pre (c, ch))) (snd (take x s pre (c, ch))) (n_next ch) e HA2) as (s' & pre' & I1 & I2 & I3); try exact HT.
    + rewrite <- app_assoc. exact HN.
    + intros c0 H0. apply HW. now right.
    + intros y Hy H0. apply (HST y Hy). now right.
    + intros l1 c0 l2 E E2. rewrite <- app_assoc. apply (HL ((c, ch) :: l1) c0 l2); [now rewrite E|assumption].
    + rewrite app_length. cbn in *. lia.
    + exists s', pre'. rewrite <- app_assoc in I1. inversion HA2 as [|u v w y Hu Hv Hnx]; subst.
      ands; [exact I1| |].
      * intros _ z Hz He i Ei f Hf. injection Ei as <-. destruct f as [|f]; [cbn in Hf; lia|].
        rewrite (walk_take f x s pre c ch HDs (HW _ (or_introl eq_refl)) HIDS).
        rewrite <- Hnx, Hz.
        assert (E2 : (z =? c2) = false). { apply Nat.eqb_neq. intros ->. apply (HST c2 Hz). cbn. tauto. }
        rewrite E2. apply (I2 ltac:(discriminate) z Hz He c2 ltac:(now symmetry)). cbn in *. lia.
      * intros HQ i z Ei Ez f. injection Ei as <-. cbn [length Nat.add].
        rewrite (walk_take _ x s pre c ch HDs (HW _ (or_introl eq_refl)) HIDS). rewrite <- Hnx.
        assert (E2 : match w_stop x with Some y => y =? c2 | None => false end = false).
        { destruct (w_stop x) as [y|] eqn:Ew; [|reflexivity]. apply Nat.eqb_neq. intros ->. apply (HST c2 eq_refl). cbn. tauto. }
        rewrite E2. apply (I3 HQ c2 z ltac:(now symmetry) Ez).
Qed.
