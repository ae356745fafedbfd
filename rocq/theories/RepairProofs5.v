(** * A repair that runs out of space. *)
From Coq Require Import ZArith List Bool Arith Lia.
From Verif Require Import Base RepairModel RepairSpec RepairProofs RepairProofs2.
Import ListNotations.

Definition more (e : list nat) (s : wst) : wst := Wst (s_disk s) (s_ids s ++ e) (s_cur s) (s_done s).

(** The end of one step of the walk, after the check for room. *)
Definition step_end (f : nat) (x : wctx) (s1 : wst) (pre : option (nat * node)) (c : nat) (ch : node) : res (wst * bool) :=
  if negb (n_del ch) && is_nil (n_ents ch) && match orig_key (w_orig x) c with Some _ => false | None => true end
  then Ok (s1, true) else
  let key := if is_nil (n_ents ch) then match orig_key (w_orig x) c with Some k => k | None => last_key ch end else last_key ch in
  let s2 := if negb (n_del ch) then on_cur (insert_last key c) s1
            else match pre with
                 | Some (pi, pn) => Wst (dput (s_disk s1) pi (set_mine (set_next (n_next ch) pn))) (s_ids s1) (s_cur s1) (s_done s1)
                 | None => s1 end in
  let pre' := if negb (n_del ch) then Some (c, ch)
              else match pre with Some (pi, pn) => Some (pi, set_mine (set_next (n_next ch) pn)) | None => None end in
  match n_next ch with
  | None => Ok (s2, negb (negb (n_del ch)))
  | Some nx => if match w_stop x with Some y => y =? nx | None => false end then Ok (s2, true) else walk f x s2 pre' nx
  end.

Lemma step_end_more e f x : (forall s pre c s2 b2, walk f x (more e s) pre c = Ok (s2, b2) ->
  exists s1 b1, walk f x s pre c = Ok (s1, b1) /\ (b1 = false \/ b1 = b2 /\ s2 = more e s1)) ->
  forall s pre c ch s2 b2, step_end f x (more e s) pre c ch = Ok (s2, b2) ->
  exists s1 b1, step_end f x s pre c ch = Ok (s1, b1) /\ (b1 = false \/ b1 = b2 /\ s2 = more e s1).
Proof.
  intros IH s pre c ch s2 b2. unfold step_end. cbv zeta.
  assert (X : forall g s, on_cur g (more e s) = more e (on_cur g s)) by reflexivity.
  destruct (negb (n_del ch) && is_nil (n_ents ch) && _).
  { intros H. injection H as <- <-. do 2 eexists. split; [reflexivity|right; split; reflexivity]. }
  set (key := if is_nil (n_ents ch) then _ else _). clearbody key.
  assert (Y : forall u, match n_next ch with
    | None => Ok (more e u, negb (negb (n_del ch)))
    | Some nx => if match w_stop x with Some y => y =? nx | None => false end then Ok (more e u, true)
                 else walk f x (more e u) (if negb (n_del ch) then Some (c, ch)
              else match pre with Some (pi, pn) => Some (pi, set_mine (set_next (n_next ch) pn)) | None => None end) nx
    end = Ok (s2, b2) -> exists s1 b1, match n_next ch with
    | None => Ok (u, negb (negb (n_del ch)))
    | Some nx => if match w_stop x with Some y => y =? nx | None => false end then Ok (u, true)
                 else walk f x u (if negb (n_del ch) then Some (c, ch)
              else match pre with Some (pi, pn) => Some (pi, set_mine (set_next (n_next ch) pn)) | None => None end) nx
    end = Ok (s1, b1) /\ (b1 = false \/ b1 = b2 /\ s2 = more e s1)).
  { intros u. destruct (n_next ch) as [nx|].
    2: { intros H. injection H as <- <-. do 2 eexists. split; [reflexivity|right; split; reflexivity]. }
    destruct (match w_stop x with Some y => y =? nx | None => false end); [|apply IH].
    intros H. injection H as <- <-. do 2 eexists. split; [reflexivity|right; split; reflexivity]. }
  destruct (negb (n_del ch)); cbn [negb] in *.
  - rewrite X. apply Y.
  - destruct pre as [[pi pn]|]; [|apply Y].
    exact (Y (Wst (dput (s_disk s) pi (set_mine (set_next (n_next ch) pn))) (s_ids s) (s_cur s) (s_done s))).
Qed.

Lemma walk_more e x : forall f s pre c s2 b2, walk f x (more e s) pre c = Ok (s2, b2) ->
  exists s1 b1, walk f x s pre c = Ok (s1, b1) /\ (b1 = false \/ b1 = b2 /\ s2 = more e s1).
Proof.
  induction f as [|f IH]; intros s pre c s2 b2 H; [discriminate|]. cbn [walk] in *.
  change (s_disk (more e s)) with (s_disk s) in H. change (s_cur (more e s)) with (s_cur s) in H.
  destruct (rd (s_disk s) c) as [ch| |]; cbn [bind] in *; [|discriminate..].
  destruct (has_edge ch || n_leaf ch && match n_next ch with None => true | Some _ => false end).
  - destruct (n_del ch).
    + destruct (rev (n_ents (snd (s_cur s)))) as [|[k v] r]; injection H as <- <-; do 2 eexists; (split; [reflexivity|right; split; reflexivity]).
    + destruct (w_edge x); injection H as <- <-; do 2 eexists; (split; [reflexivity|right; split; reflexivity]).
  - destruct (negb (w_edge x) && match orig_key (w_orig x) c with Some _ => false | None => true end && Z.ltb (w_last x) (last_key ch)).
    { injection H as <- <-. do 2 eexists. split; [reflexivity|right; split; reflexivity]. }
    destruct (negb (w_edge x) && match orig_key (w_orig x) c with Some _ => false | None => true end && is_nil (n_ents ch)).
    { destruct (skip_deleted f (s_disk s) (snd (s_cur s))) as [v| |]; cbn [bind] in *; [|discriminate..].
      injection H as <- <-. do 2 eexists. split; [reflexivity|right; split; reflexivity]. }
    cbn [s_ids more] in H.
    destruct (w_cap x <=? length (n_ents (snd (s_cur s)))) eqn:ES.
    + destruct (s_ids s) as [|i r] eqn:Ei.
      { do 2 eexists. split; [reflexivity|now left]. }
      cbn [app] in H.
      exact (step_end_more e f x IH (Wst (s_disk s) r (i, Nd false (n_level (snd (s_cur s))) [] None (n_next (snd (s_cur s))) false false)
                     ((fst (s_cur s), set_next (Some i) (snd (s_cur s))) :: s_done s)) pre c ch s2 b2 H).
    + exact (step_end_more e f x IH s pre c ch s2 b2 H).
Qed.

Lemma walk_nodes d x lvl : forall f s pre c s' b, walk f x s pre c = Ok (s', b) ->
  same_nodes d (s_disk s) -> n_level (snd (s_cur s)) = lvl ->
  (forall pi pn, pre = Some (pi, pn) -> exists n, d pi = Some n /\ relinked (pi, n) (pi, pn)) ->
  same_nodes d (s_disk s') /\ n_level (snd (s_cur s')) = lvl.
Proof.
  assert (HR : forall i n, relinked (i, n) (i, n)) by (intros; unfold relinked; auto 10).
  induction f as [|f IH]; intros s pre c s' b H HD HL HP; [discriminate|]. cbn [walk] in *.
  destruct (rd (s_disk s) c) as [ch| |] eqn:Er; cbn [bind] in *; [|discriminate..].
  assert (Hch : s_disk s c = Some ch) by (unfold rd in Er; destruct (s_disk s c); [congruence|discriminate]).
  destruct (has_edge ch || n_leaf ch && match n_next ch with None => true | Some _ => false end).
  - destruct (n_del ch); [destruct (rev (n_ents (snd (s_cur s)))) as [|[k v] r]|destruct (w_edge x)]; injection H as <- <-; auto.
  - destruct (negb (w_edge x) && match orig_key (w_orig x) c with Some _ => false | None => true end && Z.ltb (w_last x) (last_key ch)).
    { injection H as <- <-. auto. }
    destruct (negb (w_edge x) && match orig_key (w_orig x) c with Some _ => false | None => true end && is_nil (n_ents ch)).
    { destruct (skip_deleted f (s_disk s) (snd (s_cur s))) as [v| |]; cbn [bind] in *; [|discriminate..].
      injection H as <- <-. auto. }
    set (s1 := if w_cap x <=? length (n_ents (snd (s_cur s)))
               then match s_ids s with
                    | [] => s
                    | i :: r => Wst (s_disk s) r (i, Nd false (n_level (snd (s_cur s))) [] None (n_next (snd (s_cur s))) false false)
                                 ((fst (s_cur s), set_next (Some i) (snd (s_cur s))) :: s_done s)
                    end else s) in *.
    assert (S1 : s_disk s1 = s_disk s /\ n_level (snd (s_cur s1)) = lvl).
    { unfold s1. destruct (_ <=? _); [|auto]. destruct (s_ids s); auto. }
    destruct S1 as [S1 S2].
    assert (HC : exists n, d c = Some n /\ relinked (c, n) (c, ch)).
    { specialize (HD c). rewrite Hch in HD. destruct (d c) as [n|]; [eauto|contradiction]. }
    assert (HX : step_end f x s1 pre c ch = Ok (s', b) \/ s' = s).
    { unfold s1. destruct (w_cap x <=? length (n_ents (snd (s_cur s)))); destruct (s_ids s); try (left; exact H). right. now injection H as <- <-. }
    destruct HX as [HX| ->]; [|auto]. clear H. rename HX into H. unfold step_end in H. cbv zeta in H. clearbody s1.
    destruct (negb (n_del ch) && is_nil (n_ents ch) && _); [injection H as <- <-; rewrite S1; auto|].
    set (key := if is_nil (n_ents ch) then _ else _) in H. clearbody key.
    set (s2 := if negb (n_del ch) then on_cur (insert_last key c) s1 else _) in H.
    set (pre' := if negb (n_del ch) then Some (c, ch) else _) in H.
    assert (S3 : same_nodes d (s_disk s2) /\ n_level (snd (s_cur s2)) = lvl).
    { unfold s2. destruct (negb (n_del ch)); [cbn; rewrite S1; auto|]. destruct pre as [[pi pn]|]; [|rewrite S1; auto].
      cbn [s_disk s_cur]. split; [|assumption]. intros i. unfold dput. rewrite S1. specialize (HD i).
      destruct (Nat.eqb_spec i pi) as [->|]; [|exact HD].
      destruct (HP pi pn eq_refl) as (n & P1 & P2). rewrite P1. exact P2. }
    assert (S4 : forall pi pn, pre' = Some (pi, pn) -> exists n, d pi = Some n /\ relinked (pi, n) (pi, pn)).
    { unfold pre'. destruct (negb (n_del ch)); [intros pi pn E; injection E as <- <-; exact HC|].
      destruct pre as [[pi pn]|]; [|discriminate]. intros pi' pn' E. injection E as <- <-.
      destruct (HP pi pn eq_refl) as (n & P1 & P2). exists n. split; [assumption|exact P2]. }
    destruct S3 as [S3 S3']. clearbody s2 pre'.
    destruct (n_next ch) as [nx|]; [|injection H as <- <-; auto].
    destruct (match w_stop x with Some y => y =? nx | None => false end); [injection H as <- <-; auto|].
    eapply IH; eassumption.
Qed.

Lemma repair_more e fuel cap d root ids pid p o2 : root <> pid -> n_level p <= 1 ->
  repair_links fuel cap d root (ids ++ e) pid p = Ok o2 -> o_ok o2 = true ->
  exists o, repair_links fuel cap d root ids pid p = Ok o /\ o_root o = root /\
    ((o_ok o = false /\ same_nodes d (o_disk o)) \/ (o_ok o = true /\ o_disk o = o_disk o2)).
Proof.
  intros HR HL. unfold repair_links.
  destruct (true_sibling fuel d p) as [sib| |]; cbn [bind]; [|discriminate..].
  destruct (is_nil (n_ents p) && negb match sib with None => true | Some _ => false end).
  { intros H. injection H as <-. discriminate. }
  destruct (match n_ents p with (_, c) :: _ => Some c | [] => if has_edge p then n_edge p else None end) as [c0|].
  2: { intros H. injection H as <-. discriminate. }
  destruct (rd d c0) as [ch| |]; cbn [bind]; [|discriminate..].
  match goal with |- context [bind ?t _] => destruct t as [[[last stop] p1]| |] eqn:ES end; cbn [bind]; [|discriminate..].
  assert (HP1 : n_level p1 = n_level p).
  { destruct (is_nil (n_ents p)); [now injection ES as <- <- <-|].
    destruct (sibling_first_child fuel d p); cbn [bind] in ES; [|discriminate..].
    destruct (scan fuel d a ch 0 false) as [[[lk fo] nc]| |]; cbn [bind] in ES; [|discriminate..].
    destruct fo; [|now injection ES as <- <- <-]. destruct (Z.ltb _ _); [|now injection ES as <- <- <-].
    destruct sib; now injection ES as <- <- <-. }
  set (x := Ctx _ _ _ _ _ _). set (s0 := Wst d ids (pid, set_edge None (set_ents [] p1)) []).
  change (Wst d (ids ++ e) (pid, set_edge None (set_ents [] p1)) []) with (more e s0).
  destruct (walk fuel x (more e s0) None c0) as [[s2 b2]| |] eqn:EW; cbn [bind]; [|discriminate..].
  destruct (walk_more _ _ _ _ _ _ _ _ EW) as (s1 & b1 & EW1 & HB). rewrite EW1. cbn [bind].
  destruct (walk_nodes d x (n_level p) _ _ _ _ _ _ EW1) as [W1 W2].
  { intros i. cbn. destruct (d i); [|exact I]. unfold relinked. auto 10. }
  { cbn. exact HP1. }
  { discriminate. }
  destruct (Nat.eqb_spec root pid) as [|_]; [congruence|]. rewrite !andb_false_r.
  assert (HF : forall s r, n_level (snd (s_cur s)) = n_level p -> exists p', fix_last (s_disk s) last (snd (s_cur s)) r = Ok (s_disk s, p', r)).
  { intros s r HS. unfold fix_last. destruct (_ && _); [|eauto].
    assert (X : forall q, n_level q = n_level (snd (s_cur s)) -> (1 <? n_level q) = false).
    { intros q Hq. apply Nat.ltb_ge. lia. }
    destruct (Z.ltb _ _); rewrite X; eauto. }
  destruct HB as [-> |[-> ->]].
  - intros _ _. destruct (HF s1 false W2) as (p' & F). destruct (s_cur s1) as [li ln] eqn:Ec. cbn [bind snd] in *. rewrite F. cbn [bind].
    eexists. split; [reflexivity|]. cbn. auto.
  - intros H HO. destruct (HF s1 b2 W2) as (p' & F).
    change (s_cur (more e s1)) with (s_cur s1) in H. change (s_disk (more e s1)) with (s_disk s1) in H. change (s_done (more e s1)) with (s_done s1) in H.
    destruct (s_cur s1) as [li ln] eqn:Ec. cbn [bind snd] in *. rewrite F in *. cbn [bind] in *.
    destruct b2; [|injection H as <-; discriminate].
    destruct (rev (s_done s1)); injection H as <-; eexists; (split; [reflexivity|]); cbn; auto.
Qed.

Lemma repair_any_space fuel cap d root ids pid p h i0 body e en :
  0 < cap -> n_leaf p = false -> n_del p = false -> live_right d h (n_next p) None ->
  first_child p = Some i0 -> chain d (Some i0) (body ++ [(e, en)]) None ->
  rightmost en = true -> n_del en = false ->
  (forall c, In c body -> inner p c) -> (forall c l, body = c :: l -> n_del (snd c) = false) ->
  NoDup (pid :: ids ++ map fst (body ++ [(e, en)])) -> h + length body < fuel ->
  root <> pid -> n_level p <= 1 ->
  exists o, repair_links fuel cap d root ids pid p = Ok o /\ o_root o = root /\
    ((o_ok o = false /\ same_nodes d (o_disk o)) \/
     (o_ok o = true /\ exists ps, ps <> [] /\ row (o_disk o) cap (n_level p) ps (map (entry p) (live body)) (Some e) None /\
        fst (hd (0, p) ps) = pid)).
Proof.
  intros H1 H2 H3 H4 H5 H6 H7 H8 H9 H10 H11 H13 HR HL.
  set (N := S (fold_right Nat.max 0 (pid :: ids ++ map fst (body ++ [(e, en)])))).
  set (ext := seq N (S (length body))).
  assert (HN : forall i, In i (pid :: ids ++ map fst (body ++ [(e, en)])) -> i < N).
  { unfold N. generalize (pid :: ids ++ map fst (body ++ [(e, en)])). intros l i. induction l as [|a l IH]; [intros []|].
    cbn. intros [->|Hi]; [lia|]. specialize (IH Hi). lia. }
  assert (HND : NoDup (pid :: (ids ++ ext) ++ map fst (body ++ [(e, en)]))).
  { assert (HE : forall i, In i ext -> N <= i) by (intros i Hi; apply in_seq in Hi; lia).
    assert (HS : NoDup ext) by apply seq_NoDup.
    clearbody ext. clear - H11 HN HE HS.
    rewrite <- app_assoc. change (pid :: ids ++ ext ++ map fst (body ++ [(e, en)])) with ((pid :: ids) ++ ext ++ map fst (body ++ [(e, en)])).
    change (pid :: ids ++ map fst (body ++ [(e, en)])) with ((pid :: ids) ++ map fst (body ++ [(e, en)])) in *.
    revert H11 HN. generalize (pid :: ids) (map fst (body ++ [(e, en)])). intros u v. induction u as [|a u IH]; cbn; intros HU HN.
    - induction ext as [|b ext IHe]; [exact HU|]. cbn. inversion HS; subst. constructor; [|apply IHe; auto; intros i Hi; apply HE; now right].
      rewrite in_app_iff. intros [X|X]; [contradiction|]. specialize (HN b X). specialize (HE b (or_introl eq_refl)). lia.
    - inversion HU; subst. constructor; [|apply IH; [assumption|intros i Hi; apply HN; now right]].
      rewrite !in_app_iff in *. intros [X|[X|X]]; [tauto| |tauto]. specialize (HE a X). specialize (HN a (or_introl eq_refl)). lia. }
  destruct (repair_edge fuel cap d root (ids ++ ext) pid p h i0 body e en H1 H2 H3 H4 H5 H6 H7 H8 H9 H10 HND) as
    (o2 & ps & R1 & R2 & R3 & R4 & (ids' & R5) & _); [rewrite app_length; unfold ext; rewrite seq_length; lia|assumption|].
  destruct (repair_more ext fuel cap d root ids pid p o2 HR HL R1 R2) as (o & O1 & O2 & O3).
  exists o. ands; [assumption|assumption|]. destruct O3 as [O3|[O3 O4]]; [now left|right]. split; [assumption|].
  exists ps. rewrite O4. ands; [assumption|assumption|]. destruct ps as [|q ps]; [congruence|]. cbn in *. congruence.
Qed.
