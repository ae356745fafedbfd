(** Entering the merged nodes into the parent. *)
From Coq Require Import ZArith NArith List Bool Lia.
From Coq Require Import ZifyBool ZifyNat ZifyN.
From Verif Require Import Base BtNodeModel BtNodeSpec BtNodeProofs BtreeModel BtreeInv.
From Verif Require Import BtreePut BtreeMerge.
Import ListNotations.

Section WithCfg.
Variable c : cfg.

Lemma update_at_app : forall p x q ed k y es' ed',
  update_at c (p ++ x :: q) ed (length p) k y = Ok (es', ed') ->
  es' = p ++ (k, y) :: q /\ ed' = ed.
Proof.
  intros p x q ed k y es' ed' H. unfold update_at in H.
  rewrite app_length in H. cbn [length] in H.
  destruct (Nat.eqb_spec (length p) (length p + S (length q))); [lia|].
  rewrite upd_at_app in H. destruct (_ || _)%bool; [|discriminate].
  injection H as <- <-. auto.
Qed.

Lemma enter_news_app : forall bs mid p q ed i es' ed',
  length mid = length bs -> (bs <> [] -> S i = length p + length bs)%nat ->
  enter_news c (p ++ mid ++ q) ed i (rev bs) = Ok (es', ed') ->
  es' = p ++ bs ++ q /\ ed' = ed.
Proof.
  induction bs as [|[k x] bs IH] using rev_ind; intros mid p q ed i es' ed' HL HI HR.
  - destruct mid; [|discriminate]. cbn in HR. injection HR as <- <-. auto.
  - rewrite rev_app_distr in HR. cbn [rev app enter_news] in HR.
    rewrite app_length in HL. cbn in HL.
    destruct (exists_last (l := mid)) as [mid' [y ->]];
      [intros ->; cbn in HL; lia|].
    rewrite app_length in HL. cbn in HL.
    rewrite app_length in HI. cbn in HI.
    specialize (HI ltac:(destruct bs; discriminate)).
    replace (p ++ (mid' ++ [y]) ++ q) with ((p ++ mid') ++ y :: q) in HR
      by (rewrite <- !app_assoc; reflexivity).
    replace i with (length (p ++ mid')) in HR at 1 by (rewrite app_length; lia).
    destruct (update_at c _ _ _ _ _) as [[es1 ed1]|] eqn:EU; [|discriminate].
    apply update_at_app in EU. destruct EU as [-> ->].
    rewrite <- app_assoc in HR.
    apply IH in HR; [|lia|intros Hb; destruct bs; [congruence|cbn [length] in *; lia]].
    destruct HR as [-> ->]. rewrite <- !app_assoc. auto.
Qed.

Lemma set_child_app : forall p k y q ed x,
  set_child (p ++ (k, y) :: q) ed (length p) x = (p ++ (k, x) :: q, ed).
Proof. intros. unfold set_child. rewrite nth_len_app, upd_at_app. reflexivity. Qed.

Lemma set_child_edge : forall p ed x, set_child p ed (length p) x = (p, Some x).
Proof.
  intros. unfold set_child.
  replace (nth_error p (length p)) with (@None (Z * tree)); [reflexivity|].
  symmetry. apply nth_error_None. lia.
Qed.

Lemma update_at_edge : forall p ed k x, update_at c p ed (length p) k x = Ok (p, Some x).
Proof. intros. unfold update_at. now rewrite Nat.eqb_refl. Qed.

Lemma firstn_1_app : forall (T : Type) (a : list T) x b,
  firstn (length a + 1) (a ++ x :: b) = a ++ [x].
Proof. intros. rewrite firstn_app_2. reflexivity. Qed.

Lemma skipn_1_app : forall (T : Type) (a : list T) x b n,
  skipn (S (length a + n)) (a ++ x :: b) = skipn n b.
Proof.
  intros. replace (S (length a + n)) with (length (a ++ [x]) + n)%nat
    by (rewrite app_length; cbn; lia).
  rewrite <- skipn_add. change (x :: b) with ([x] ++ b).
  rewrite app_assoc, skipn_len_app. reflexivity.
Qed.

(** The window reaches the edge. *)
Lemma enter_parent_edge : forall a k0 lt w e kl l' lempty built es' ed',
  (length built <= length w + 1)%nat ->
  enter_parent c (a ++ (k0, lt) :: w) (Some e) (length a) (length a + 1 + length w)
    (length w + 1) (kl, l') lempty built = Ok (es', ed') ->
  let win := (if lempty then k0 else kl, l') :: built in
  slots es' ed' = slots a None ++ slots (removelast win) None ++ [(PosInf, snd (last win (0%Z, l')))].
Proof.
  intros a k0 lt w e kl l' lempty built es' ed' HL HR. cbn zeta.
  unfold enter_parent in HR.
  set (plast := last_key c (a ++ (k0, lt) :: w)) in HR. clearbody plast.
  destruct built as [|b0 built0] eqn:EB.
  - (* all old nodes go: the leftmost node becomes the edge *)
    cbn [length] in HR. rewrite Nat.sub_0_r in HR.
    destruct (Nat.eqb_spec (length w + 1) 0); [lia|].
    unfold remove_range in HR. rewrite app_length in HR. cbn [length] in HR.
    destruct (Nat.eqb_spec (length a + (length w + 1)) (length a + S (length w))); [|lia].
    replace (length a + 1 - 1)%nat with (length a) in HR by lia.
    rewrite firstn_len_app, nth_len_app in HR. cbn [option_map snd rev enter_news] in HR.
    rewrite set_child_edge, update_at_edge in HR.
    assert (HR' : es' = a /\ ed' = Some l').
    { destruct lempty; (destruct a; injection HR as <- <-; auto). }
    destruct HR' as [-> ->]. unfold slots. cbn. rewrite app_nil_r. reflexivity.
  - rewrite <- EB in *. assert (Hne : built <> []) by (rewrite EB; discriminate).
    clear EB b0 built0.
    destruct (exists_last Hne) as [bi [[kb xb] ->]].
    rewrite app_length in *. cbn [length] in *.
    set (ex := (length w + 1 - (length bi + 1))%nat) in *.
    assert (Hex : (ex <= length w /\ length w - ex = length bi)%nat) by lia.
    clearbody ex. destruct Hex as [Hex1 Hex2].
    assert (E1 : (if (ex =? 0)%nat then (a ++ (k0, lt) :: w, Some e)
        else remove_range (a ++ (k0, lt) :: w) (Some e) (length a + 1) (length a + ex))
        = (a ++ (k0, lt) :: skipn ex w, Some e)).
    { destruct (Nat.eqb_spec ex 0) as [E0|]; [rewrite E0; reflexivity|].
      unfold remove_range. rewrite app_length. cbn [length].
      destruct (Nat.eqb_spec (length a + ex) (length a + S (length w))); [lia|].
      rewrite firstn_1_app, skipn_1_app, <- app_assoc. reflexivity. }
    rewrite E1 in HR. clear E1. rewrite rev_app_distr in HR. cbn [rev app enter_news] in HR.
    assert (HLes : length (a ++ (k0, lt) :: skipn ex w) = (length a + 1 + length w - ex)%nat)
      by (rewrite app_length; cbn [length]; rewrite skipn_length; lia).
    rewrite <- HLes, update_at_edge in HR.
    destruct (enter_news _ _ _ _ _) as [[es2 ed2]|] eqn:EN; [|discriminate].
    replace (a ++ (k0, lt) :: skipn ex w) with ((a ++ [(k0, lt)]) ++ skipn ex w ++ [])
      in EN at 1 by (rewrite <- !app_assoc, app_nil_r; reflexivity).
    apply enter_news_app in EN.
    2: rewrite skipn_length; lia.
    2: { intros Hb. repeat (rewrite ?app_length, ?skipn_length; cbn [length]).
         destruct bi; [congruence|cbn [length] in *; lia]. }
    destruct EN as [-> ->]. rewrite app_nil_r, <- app_assoc in HR. cbn [app] in HR.
    assert (HR' : es' = a ++ (if lempty then k0 else kl, l') :: bi /\ ed' = Some xb).
    { destruct lempty.
      - rewrite set_child_app in HR. destruct a; injection HR as <- <-; auto.
      - cbn [fst snd] in HR.
        destruct (update_at c _ _ _ _ _) as [[es3 ed3]|] eqn:EU; [|discriminate].
        apply update_at_app in EU. destruct EU as [-> ->].
        destruct a; injection HR as <- <-; auto. }
    destruct HR' as [-> ->].
    change ((if lempty then k0 else kl, l') :: bi ++ [(kb, xb)]) with
      (((if lempty then k0 else kl, l') :: bi) ++ [(kb, xb)]).
    rewrite removelast_last, last_last. cbn [snd].
    unfold slots. rewrite map_app, !app_nil_r, <- app_assoc. reflexivity.
Qed.

(** The window ends before the edge. *)
Lemma enter_parent_mid : forall a k0 lt w q ed kl l' lempty built es' ed',
  (length built <= length w)%nat ->
  enter_parent c (a ++ (k0, lt) :: w ++ q) ed (length a) (length a + length w)
    (length w) (kl, l') lempty built = Ok (es', ed') ->
  let win := (if lempty then k0 else kl, l') :: built in
  (slots q ed <> [] -> slots es' ed' = slots a None ++ slots win None ++ slots q ed) /\
  (slots q ed = [] -> slots es' ed' = slots a None ++ slots (removelast win) None ++
     [(Fin (last_key c ((k0, lt) :: w)), snd (last win (0%Z, l')))]).
Proof.
  intros a k0 lt w q ed kl l' lempty built es' ed' HL HR. cbn zeta.
  unfold enter_parent in HR.
  set (plast := last_key c (a ++ (k0, lt) :: w ++ q)) in HR.
  set (ex := (length w - length built)%nat) in *.
  assert (Hex : (ex <= length w /\ length w - ex = length built)%nat) by lia.
  clearbody ex. destruct Hex as [Hex1 Hex2].
  assert (E1 : (if (ex =? 0)%nat then (a ++ (k0, lt) :: w ++ q, ed)
      else remove_range (a ++ (k0, lt) :: w ++ q) ed (length a + 1) (length a + ex))
      = (a ++ (k0, lt) :: skipn ex w ++ q, ed)).
  { destruct (Nat.eqb_spec ex 0) as [E0|]; [rewrite E0; reflexivity|].
    unfold remove_range. rewrite !app_length. cbn [length]. rewrite app_length.
    destruct (Nat.eqb_spec (length a + ex) (length a + S (length w + length q))); [lia|].
    rewrite firstn_1_app, skipn_1_app, <- app_assoc. cbn [app].
    rewrite skipn_app. replace (ex - length w)%nat with 0%nat by lia. reflexivity. }
  rewrite E1 in HR. clear E1.
  destruct (enter_news _ _ _ _ _) as [[es2 ed2]|] eqn:EN; [|discriminate].
  replace (a ++ (k0, lt) :: skipn ex w ++ q) with ((a ++ [(k0, lt)]) ++ skipn ex w ++ q)
    in EN at 1 by (rewrite <- !app_assoc; reflexivity).
  apply enter_news_app in EN.
  2: rewrite skipn_length; lia.
  2: { intros Hb. rewrite app_length. cbn [length].
       destruct built; [congruence|cbn [length] in *; lia]. }
  destruct EN as [-> ->]. rewrite <- app_assoc in HR. cbn [app] in HR.
  set (kl' := if lempty then k0 else kl) in *.
  assert (HR' : match a ++ (kl', l') :: built ++ q, ed with
     | _ :: _, None =>
         if (last_key c (a ++ (kl', l') :: built ++ q) =? plast)%Z
         then Ok (a ++ (kl', l') :: built ++ q, ed)
         else update_at c (a ++ (kl', l') :: built ++ q) ed
                (length (a ++ (kl', l') :: built ++ q) - 1) plast
                (last (map snd built) l')
     | _, _ => Ok (a ++ (kl', l') :: built ++ q, ed)
     end = Ok (es', ed')).
  { unfold kl'. destruct lempty.
    - rewrite set_child_app in HR. exact HR.
    - cbn [fst snd] in HR.
      destruct (update_at c _ _ (length a) kl l') as [[es3 ed3]|] eqn:EU; [|discriminate].
      apply update_at_app in EU. destruct EU as [-> ->]. exact HR. }
  clear HR. clearbody kl'.
  set (win := (kl', l') :: built) in *.
  change (a ++ (kl', l') :: built ++ q) with (a ++ win ++ q) in HR'.
  assert (Hcons : exists y ys, a ++ win ++ q = y :: ys).
  { destruct a; [|cbn; eauto]. unfold win. cbn. eauto. }
  split; intros Hq.
  - assert (HE : es' = a ++ win ++ q /\ ed' = ed).
    { destruct Hcons as [y [ys Hc]]. destruct ed as [e|].
      - rewrite Hc in *. injection HR' as <- <-. auto.
      - destruct (nil_dec _ q) as [->|Hq']; [now cbn in Hq|].
        destruct (exists_last Hq') as [q' [[kq xq] Eq]].
        assert (HP : plast = kq).
        { unfold plast. rewrite Eq.
          replace (a ++ (k0, lt) :: w ++ q' ++ [(kq, xq)]) with
            ((a ++ (k0, lt) :: w ++ q') ++ [(kq, xq)])
            by (rewrite <- app_assoc; cbn; now rewrite <- app_assoc).
          apply last_key_app. }
        assert (HK : last_key c (a ++ win ++ q) = kq).
        { rewrite Eq, !app_assoc. apply last_key_app. }
        rewrite HK, HP, Z.eqb_refl in HR'. rewrite Hc in *. injection HR' as <- <-. auto. }
    destruct HE as [-> ->]. now rewrite !slots_app.
  - assert (q = [] /\ ed = None) as [-> ->].
    { unfold slots in Hq. apply app_eq_nil in Hq. destruct Hq as [H1 H2].
      apply map_eq_nil in H1. destruct ed; [discriminate|]. auto. }
    rewrite !app_nil_r in *.
    assert (Hwin : win <> []) by discriminate.
    destruct (exists_last Hwin) as [wi [[kw xw] Ew]].
    assert (Hpl : plast = last_key c ((k0, lt) :: w)).
    { unfold plast. assert (H0 : (k0, lt) :: w <> []) by discriminate.
      destruct (exists_last H0) as [z [[kz xz] Ez]]. rewrite app_nil_r, Ez, app_assoc.
      now rewrite !last_key_app. }
    assert (Hxw : last (map snd built) l' = xw).
    { assert (HM : last (map snd win) l' = xw).
      { rewrite Ew, map_app. cbn. apply last_last. }
      rewrite <- HM. unfold win. cbn [map snd]. destruct (map snd built); reflexivity. }
    rewrite <- Hpl, Ew, removelast_last, last_last. cbn [snd].
    rewrite Hxw, Ew in HR'. rewrite app_assoc in HR'.
    rewrite last_key_app in HR'.
    assert (HE : es' = (a ++ wi) ++ [(plast, xw)] /\ ed' = None).
    { destruct ((a ++ wi) ++ [(kw, xw)]) as [|y ys] eqn:EQ.
      { apply app_eq_nil in EQ. destruct EQ; discriminate. }
      rewrite <- EQ in HR'. clear y ys EQ.
      destruct (Z.eqb_spec kw plast) as [E|Hn].
      - rewrite <- E. injection HR' as <- <-. auto.
      - replace (length ((a ++ wi) ++ [(kw, xw)]) - 1)%nat with (length (a ++ wi)) in HR'
          by (rewrite (app_length (a ++ wi)); cbn; lia).
        apply update_at_app in HR'. exact HR'. }
    destruct HE as [-> ->]. rewrite <- app_assoc, !slots_app. reflexivity.
Qed.

(** *** The bounds of the new nodes *)

Section Window.
Context {A B : Type}.
Variable Seg : ext -> ext -> list (Z * A) -> option B -> Prop.
Variable wfn : ext -> ext -> tree -> Prop.
Hypothesis Hsplit : forall lo hi a b e, Seg lo hi (a ++ b) e -> a <> [] ->
  Seg lo (Fin (last_key c a)) a None /\ Seg (Fin (last_key c a)) hi b e /\
  inb lo hi (last_key c a) /\ (b <> [] -> elt (Fin (last_key c a)) hi).

Notation seg := (list (Z * A) * option B)%type.

Definition builds (b : Z * tree) (s : seg) : Prop :=
  fst b = last_key c (fst s) /\
  forall lo hi, Seg lo hi (fst s) (snd s) -> wfn lo hi (snd b).

(** All but the last node have their last keys as upper bounds; the last one
    goes up to [U]. *)
Definition window (lo U : ext) (bs : list (Z * tree)) (e : option B) : Prop :=
  exists lo' bi k x, bs = bi ++ [(k, x)] /\
    chain wfn lo lo' (slots bi None) /\ elt lo' U /\ wfn lo' U x /\
    (e = None -> wfn lo' (Fin k) x /\ elt lo' (Fin k) /\ ele (Fin k) U).

Lemma window_ok : forall segs bs lo U,
  Forall2 builds bs segs -> segs <> [] -> Forall (fun s => fst s <> []) segs ->
  Forall (fun s => snd s = None) (removelast segs) ->
  Seg lo U (conc segs) (snd (last segs ([], None))) ->
  window lo U bs (snd (last segs ([], None))).
Proof.
  induction segs as [|s segs IH]; intros bs lo U HB Hne Hnn Hed HS; [congruence|].
  inversion HB as [|b ? bs' ? Hb HB']; subst. inversion Hnn as [|? ? Hs Hnn']; subst.
  destruct b as [kb xb]. destruct Hb as [Hb1 Hb2]. cbn [fst snd] in *. subst kb.
  destruct segs as [|s2 segs].
  - inversion HB'; subst. cbn [last] in *. rewrite conc_one in HS.
    rewrite <- (app_nil_r (fst s)) in HS.
    destruct (Hsplit _ _ _ _ _ HS Hs) as [S1 [_ [[S2 S3] _]]].
    rewrite app_nil_r in HS.
    exists lo, [], (last_key c (fst s)), xb. split; [reflexivity|]. split; [reflexivity|].
    split; [eapply elt_ele_trans; eassumption|]. split; [now apply Hb2|].
    intros E. split; [apply Hb2; rewrite E; exact S1|]. auto.
  - rewrite conc_cons in HS. destruct (Hsplit _ _ _ _ _ HS Hs) as [S1 [S2 [[S3 S4] _]]].
    cbn [last] in *. inversion Hed; subst.
    destruct (IH bs' (Fin (last_key c (fst s))) U HB' ltac:(discriminate) Hnn' ltac:(assumption) S2)
      as [lo' [bi [k [x [-> [W1 W2]]]]]].
    exists lo', ((last_key c (fst s), xb) :: bi), k, x. split; [reflexivity|].
    split; [|exact W2]. change (slots ((last_key c (fst s), xb) :: bi) None) with
      ((Fin (last_key c (fst s)), xb) :: slots bi None).
    cbn [chain]. split; [assumption|]. split; [|assumption].
    apply Hb2. rewrite H1. exact S1.
Qed.

End Window.

(** *** The parent after a merge *)

Lemma slots_cut : forall es ed p q, slots es ed = p ++ q -> (length p <= length es)%nat ->
  exists a b, es = a ++ b /\ p = slots a None /\ q = slots b ed.
Proof.
  intros es ed p q HE HL. exists (firstn (length p) es), (skipn (length p) es).
  split; [symmetry; apply firstn_skipn|].
  rewrite <- (firstn_skipn (length p) es) in HE at 1. rewrite slots_app in HE.
  apply app_same_len in HE.
  - destruct HE as [H1 H2]. auto.
  - rewrite slots_length, firstn_length. lia.
Qed.

Lemma slots_none : forall es, slots es None = map (fun p => (Fin (fst p), snd p)) es.
Proof. intros. unfold slots. apply app_nil_r. Qed.

Lemma lvs_slots_none : forall es, lvs (slots es None) = flat_map (fun p => leaves (snd p)) es.
Proof.
  intros. rewrite slots_none. induction es as [|p es IH]; [reflexivity|]. cbn.
  unfold lvs in *. cbn. now rewrite IH.
Qed.

Lemma chain_last_fin : forall P lo hi es ed, chain P lo (Fin hi) (slots es ed) -> ed = None.
Proof.
  intros P lo hi es ed H. destruct ed as [e|]; [|reflexivity]. exfalso.
  unfold slots in H. apply chain_app in H. destruct H as [m [_ H]]. cbn in H.
  destruct H as [_ [_ H]]. discriminate.
Qed.

Lemma chain_last_key : forall P lo hi es, chain P lo hi (slots es None) -> es <> [] ->
  hi = Fin (last_key c es).
Proof.
  intros P lo hi es H Hn. destruct (exists_last Hn) as [a [[k x] ->]].
  rewrite last_key_app. rewrite slots_app in H. apply chain_app in H.
  destruct H as [m [_ H]]. cbn in H. destruct H as [_ [_ H]]. congruence.
Qed.

Lemma merge_enter : forall B h lo hi es ed P k0 lt W Q m U kl l' lempty built es' ed' (e : option B),
  slots es ed = P ++ (Fin k0, lt) :: W ++ Q -> W <> [] ->
  chain (wf h) lo m P -> chain (wf h) m U ((Fin k0, lt) :: W) -> chain (wf h) U hi Q ->
  (length built <= length W)%nat ->
  window (wf h) m U ((if lempty : bool then k0 else kl, l') :: built) e ->
  (Q <> [] -> e = None) ->
  enter_parent c es ed (length P) (length P + length W) (length W) (kl, l') lempty built
    = Ok (es', ed') ->
  slots es' ed' <> [] /\ chain (wf h) lo hi (slots es' ed') /\
  lvs (slots es' ed') = lvs P ++ leaves l' ++ flat_map (fun p => leaves (snd p)) built ++ lvs Q.
Proof.
  intros B h lo hi es ed P k0 lt W Q m U kl l' lempty built es' ed' e HE HW HP HWc HQ HL
    [lo' [bi [k [x [Ebs [W1 [W2 [W3 W4]]]]]]]] He HR.
  set (win := (if lempty then k0 else kl, l') :: built) in *.
  assert (Hlv : forall pre post, lvs pre ++ leaves l' ++
     flat_map (fun p => leaves (snd p)) built ++ lvs post =
     lvs pre ++ flat_map (fun p => leaves (snd p)) win ++ lvs post).
  { intros. unfold win. cbn [flat_map snd]. rewrite <- !app_assoc. reflexivity. }
  rewrite Hlv. clear Hlv.
  assert (Hlen : length (slots es ed) = (length P + 1 + length W + length Q)%nat)
    by (rewrite HE, !app_length; cbn [length]; rewrite app_length; lia).
  rewrite slots_length in Hlen.
  assert (HWl : (0 < length W)%nat) by (destruct W; [congruence|cbn; lia]).
  destruct (slots_cut es ed P ((Fin k0, lt) :: W ++ Q) HE) as [a [b [Ees [EP Eb]]]].
  { destruct ed; lia. }
  assert (HPl : length P = length a) by (rewrite EP, slots_length; lia).
  destruct b as [|[k1 x1] b].
  { exfalso. unfold slots in Eb. destruct ed; cbn in Eb; discriminate. }
  change (slots ((k1, x1) :: b) ed) with ((Fin k1, x1) :: slots b ed) in Eb.
  injection Eb as <- <- Eb.
  assert (Hlenb : (length (slots b ed) = length W + length Q)%nat)
    by (rewrite <- Eb, app_length; reflexivity).
  rewrite slots_length in Hlenb.
  destruct (Nat.le_gt_cases (length W) (length b)) as [Hcase|Hcase].
  - (* the window ends before the edge *)
    destruct (slots_cut b ed W Q (eq_sym Eb) Hcase) as [w [q [-> [EW EQ]]]].
    assert (HWw : length W = length w) by (rewrite EW, slots_length; lia).
    subst es. rewrite HPl, HWw in HR.
    apply enter_parent_mid in HR; [|lia]. cbn zeta in HR. fold win in HR.
    destruct HR as [HR1 HR2]. rewrite <- EQ in *.
    destruct (nil_dec _ Q) as [HQ0|HQ0].
    + specialize (HR2 HQ0). rewrite HR2. rewrite HQ0 in *. cbn in HQ. subst hi.
      rewrite Ebs in *. rewrite removelast_last, last_last in *. cbn [snd] in *.
      assert (HU : U = Fin (last_key c ((k0, lt) :: w))).
      { eapply chain_last_key with (es := (k0, lt) :: w); [|discriminate].
        rewrite EW in HWc. exact HWc. }
      rewrite <- HU in *. rewrite <- EP in *.
      split; [destruct P; destruct (slots bi None); discriminate|]. split.
      * apply chain_app. exists m. split; [assumption|]. apply chain_app. exists lo'.
        split; [assumption|]. cbn. auto.
      * rewrite !lvs_app, flat_map_app, lvs_slots_none. cbn. rewrite !app_nil_r. reflexivity.
    + specialize (HR1 HQ0). rewrite HR1. rewrite <- EP in *.
      destruct (W4 (He HQ0)) as [V1 [V2 V3]].
      split; [destruct P; unfold win; discriminate|]. split.
      * apply chain_app. exists m. split; [assumption|].
        rewrite Ebs, slots_app, <- app_assoc. apply chain_app. exists lo'.
        split; [assumption|]. cbn. split; [assumption|]. split; [assumption|].
        eapply chain_weaken_lo; eauto. apply wf_weaken_lo.
      * rewrite !lvs_app, lvs_slots_none. reflexivity.
  - (* the window reaches the edge *)
    destruct ed as [ee|]; [|lia].
    assert (HQ0 : Q = []) by (destruct Q; [reflexivity|cbn in Hlenb; lia]).
    subst Q es. rewrite app_nil_r in Eb. subst W.
    rewrite slots_length in *. rewrite HPl in HR.
    replace (length a + (length b + 1))%nat with (length a + 1 + length b)%nat in HR by lia.
    apply enter_parent_edge in HR; [|lia]. cbn zeta in HR. fold win in HR.
    cbn in HQ. subst hi.
    assert (HU : U = PosInf).
    { unfold slots in HWc. cbn [chain] in HWc. destruct HWc as [_ [_ HWc]].
      apply chain_app in HWc. destruct HWc as [m' [_ HWc]]. cbn in HWc.
      destruct HWc as [_ [_ HWc]]. congruence. }
    subst U. rewrite HR, Ebs in *. rewrite removelast_last, last_last in *. cbn [snd] in *.
    rewrite <- EP in *.
    split; [destruct P; destruct (slots bi None); discriminate|]. split.
    + apply chain_app. exists m. split; [assumption|]. apply chain_app. exists lo'.
      split; [assumption|]. cbn. auto.
    + rewrite !lvs_app, flat_map_app, lvs_slots_none. cbn. rewrite !app_nil_r. reflexivity.
Qed.

Lemma children_slots : forall n es ed s l, children es ed s n = Some l ->
  map snd (firstn n (skipn s (slots es ed))) = l /\
  length (firstn n (skipn s (slots es ed))) = n.
Proof.
  induction n as [|n IH]; intros es ed s l H; cbn [children] in H.
  - injection H as <-. auto.
  - rewrite child_at_slots in H.
    destruct (nth_error (slots es ed) s) as [[u x]|] eqn:EN; [|discriminate].
    cbn [option_map snd] in H.
    destruct (children es ed (S s) n) as [r|] eqn:EC; [|discriminate]. injection H as <-.
    destruct (IH _ _ _ _ EC) as [H1 H2].
    apply nth_error_split in EN. destruct EN as [a [b [Ea Eb]]]. rewrite Ea, <- Eb in *.
    rewrite skipn_S_app in *. rewrite skipn_len_app. cbn. rewrite H1, H2. auto.
Qed.

(** *** Merging leaves *)

Lemma as_leaves_ok : forall W u U, chain (wf 0) u U W ->
  exists olds, as_leaves (map snd W) = Some olds /\ length olds = length W /\
    conc olds = items (lvs W) /\ Forall (fun o => snd o = None) olds /\
    leaf_ok u U (conc olds).
Proof.
  induction W as [|[v x] W IH]; intros u U H; cbn [chain] in H.
  - exists []. split; [reflexivity|]. split; [reflexivity|]. split; [reflexivity|].
    split; [constructor|apply leaf_ok_nil].
  - destruct H as [H1 [H2 H3]]. destruct x as [id nx es|]; [|contradiction].
    destruct (IH _ _ H3) as [olds [E1 [E2 [E3 [E4 E5]]]]].
    exists ((es, None) :: olds). cbn [map snd as_leaves]. rewrite E1. split; [reflexivity|].
    split; [cbn; lia|]. split; [|split; [constructor; [reflexivity|assumption]|]].
    + rewrite conc_cons, E3. reflexivity.
    + rewrite conc_cons. cbn [fst]. cbn in H2.
      eapply leaf_ok_app; [exact H2|exact E5|now left|]. eapply chain_le; exact H3.
Qed.

Lemma leaves_next : forall W a e lt, Forall (fun s => level (snd s) = 0%nat) W -> W <> [] ->
  lchain a (lvs W) e -> e = next_of (last (map snd W) lt).
Proof.
  induction W as [|[v x] W IH]; intros a e lt HF Hn H; [congruence|].
  inversion HF; subst. destruct x as [id nx es|]; [|discriminate].
  change (lvs ((v, Leaf id nx es) :: W)) with ((id, nx, es) :: lvs W) in H.
  destruct H as [_ H]. destruct W as [|s W].
  - cbn in H. cbn. congruence.
  - cbn [map last snd] in *. apply (IH nx e lt H3 ltac:(discriminate) H).
Qed.

Lemma build_leaves_ids : forall news nx sn i,
  In i (ids (flat_map (fun p => leaves (snd p)) (build_leaves c nx sn news))) ->
  (nx <= i < nx + N.of_nat (length news))%N.
Proof.
  induction news as [|[es e] news IH]; intros nx sn i H; [contradiction|].
  cbn in H. destruct H as [<-|H]; [cbn [length]; lia|].
  apply IH in H. cbn [length]. lia.
Qed.

Lemma build_leaves_nodup : forall news nx sn,
  NoDup (ids (flat_map (fun p => leaves (snd p)) (build_leaves c nx sn news))).
Proof.
  induction news as [|[es e] news IH]; intros nx sn; [constructor|].
  cbn. constructor; [|apply IH]. intros H. apply build_leaves_ids in H. lia.
Qed.

Lemma build_leaves_chain : forall news nx sn, news <> [] ->
  lchain nx (flat_map (fun p => leaves (snd p)) (build_leaves c nx sn news)) sn.
Proof.
  induction news as [|[es e] news IH]; intros nx sn H; [congruence|].
  cbn. split; [reflexivity|]. destruct news; [reflexivity|]. apply IH. discriminate.
Qed.

Lemma build_leaves_items : forall news nx sn,
  items (flat_map (fun p => leaves (snd p)) (build_leaves c nx sn news)) = conc news.
Proof.
  induction news as [|[es e] news IH]; intros nx sn; [reflexivity|].
  change (es ++ items (flat_map (fun p => leaves (snd p)) (build_leaves c (nx + 1) sn news))
    = es ++ conc news). now rewrite IH.
Qed.

Lemma build_leaves_length : forall news nx sn, length (build_leaves c nx sn news) = length news.
Proof. induction news as [|[es e] news IH]; intros; cbn; [reflexivity|]. now rewrite IH. Qed.

Definition seg_leaf (lo hi : ext) (es : list (Z * N)) (e : option N) : Prop := leaf_ok lo hi es.

Lemma build_leaves_builds : forall news nx sn,
  Forall2 (builds seg_leaf (wf 0)) (build_leaves c nx sn news) news.
Proof.
  induction news as [|[es e] news IH]; intros nx sn; [constructor|].
  cbn. constructor; [|apply IH]. split; [reflexivity|]. cbn. auto.
Qed.

Lemma leaves_lgood : forall nx lid n0 les u W U fl news sn,
  chain (wf 0) u U W -> W <> [] ->
  sn = next_of (last (map snd W) (Leaf lid n0 les)) ->
  lgood nx ((lid, n0, les) :: lvs W) (nx + N.of_nat (length news))
    ((lid, match news with [] => sn | _ => nx end, fl) ::
     flat_map (fun p => leaves (snd p)) (build_leaves c nx sn news)).
Proof.
  intros nx lid n0 les u W U fl news sn HW Hn ->. constructor.
  - lia.
  - intros a e H. cbn [lchain] in *. destruct H as [-> H]. split; [reflexivity|].
    assert (HF : Forall (fun s : ext * tree => level (snd s) = 0%nat) W).
    { clear - HW. revert u HW. induction W as [|[v x] W IH]; intros u HW; constructor.
      - destruct HW as [_ [HW _]]. now apply wf_level in HW.
      - destruct HW as [_ [_ HW]]. eauto. }
    rewrite (leaves_next W n0 e (Leaf a n0 les) HF Hn H).
    destruct news as [|w news]; [reflexivity|]. apply build_leaves_chain. discriminate.
  - intros i Hi. cbn [ids map fst] in Hi. destruct Hi as [<-|Hi]; [left; now left|].
    right. apply build_leaves_ids in Hi. exact Hi.
  - intros H1 H2. cbn [ids map fst]. constructor; [|apply build_leaves_nodup].
    intros Hi. apply build_leaves_ids in Hi. cbn in H2. inversion H2; subst. cbn in *. lia.
Qed.

Lemma window_cons : forall B h m k0 l' U bs (e : option B),
  elt m (Fin k0) -> wf h m (Fin k0) l' -> window (wf h) (Fin k0) U bs e ->
  window (wf h) m U ((k0, l') :: bs) e.
Proof.
  intros B h m k0 l' U bs e H1 H2 [lo' [bi [k [x [-> [W1 W2]]]]]].
  exists lo', ((k0, l') :: bi), k, x. split; [reflexivity|]. split; [|exact W2].
  change (slots ((k0, l') :: bi) None) with ((Fin k0, l') :: slots bi None).
  cbn. auto.
Qed.

Lemma edges_ok_none : forall (T S : Type) (l : list (list (Z * T) * option S)),
  Forall (fun o => snd o = None) l -> edges_ok l.
Proof.
  unfold edges_ok. intros T S l H. destruct (nil_dec _ l) as [->|Hn]; [constructor|].
  destruct (exists_last Hn) as [l' [o ->]]. rewrite removelast_last.
  apply Forall_app in H. tauto.
Qed.

Lemma last_none : forall (T S : Type) (l : list (list (Z * T) * option S)) d,
  Forall (fun o => snd o = None) l -> snd d = None -> snd (last l d) = None.
Proof.
  intros T S l d H Hd. destruct (nil_dec _ l) as [->|Hn]; [exact Hd|].
  destruct (exists_last Hn) as [l' [o ->]]. rewrite last_last.
  apply Forall_app in H. destruct H as [_ H]. inversion H; subst. assumption.
Qed.

(** *** Merging interior nodes *)

Definition seg_inner (h : nat) (lo hi : ext) (es : list (Z * tree)) (e : option tree) : Prop :=
  chain (wf h) lo hi (slots es e).

Lemma as_inners_ok : forall h W u U, chain (wf (S h)) u U W -> W <> [] ->
  exists olds, as_inners (map snd W) = Some olds /\ length olds = length W /\
    edges_ok olds /\
    lvs (slots (conc olds) (snd (last olds ([], None)))) = lvs W /\
    chain (wf h) u U (slots (conc olds) (snd (last olds ([], None)))).
Proof.
  induction W as [|[v x] W IH]; intros u U H Hn; [congruence|].
  destruct H as [H1 [H2 H3]]. destruct x as [|id nx es ed]; [contradiction|].
  destruct H2 as [H4 H5].
  change (lvs ((v, Inner id nx es ed) :: W)) with (leaves (Inner id nx es ed) ++ lvs W).
  rewrite leaves_inner.
  destruct W as [|s W].
  - cbn in H3. subst v. exists [(es, ed)]. split; [reflexivity|]. split; [reflexivity|].
    split; [constructor|]. rewrite conc_one. cbn [last fst snd]. split; [|assumption].
    cbn. now rewrite app_nil_r.
  - destruct (IH _ _ H3 ltac:(discriminate)) as [olds [E1 [E2 [E3 [E4 E5]]]]].
    pose proof (chain_lt _ _ _ _ H3 ltac:(discriminate)) as Hlt.
    assert (Hv : exists k, v = Fin k).
    { destruct v; [destruct u; contradiction|eauto|destruct U; contradiction]. }
    destruct Hv as [k ->]. pose proof (chain_last_fin _ _ _ _ _ H5). subst ed.
    assert (Hon : olds <> []) by (intros ->; discriminate).
    exists ((es, None) :: olds).
    split; [change (option_map (cons (es, None)) (as_inners (map snd (s :: W))) = Some ((es, None) :: olds)); now rewrite E1|].
    split; [cbn [length] in *; lia|].
    split; [unfold edges_ok; rewrite removelast_nonempty by assumption; constructor;
            [reflexivity|exact E3]|].
    rewrite conc_cons. cbn [fst].
    assert (HL : last ((es, None) :: olds) ([], None) = last olds ([], None)).
    { destruct olds; [congruence|reflexivity]. }
    rewrite HL, slots_app. split.
    + rewrite lvs_app, E4. reflexivity.
    + apply chain_app. eauto.
Qed.

Lemma segs_leaves : forall (segs : list (list (Z * tree) * option tree)), segs <> [] ->
  Forall (fun s => snd s = None) (removelast segs) ->
  flat_map (fun s => lvs (slots (fst s) (snd s))) segs =
  lvs (slots (conc segs) (snd (last segs ([], None)))).
Proof.
  induction segs as [|[es e] segs IH]; intros Hn HF; [congruence|].
  destruct segs as [|s segs].
  - cbn [flat_map last fst snd]. rewrite conc_one, app_nil_r. reflexivity.
  - rewrite removelast_nonempty in HF by discriminate. inversion HF; subst. cbn [snd] in *.
    subst e. rewrite conc_cons. cbn [fst].
    change (flat_map (fun s0 => lvs (slots (fst s0) (snd s0))) ((es, None) :: s :: segs))
      with (lvs (slots es None) ++ flat_map (fun s0 => lvs (slots (fst s0) (snd s0))) (s :: segs)).
    rewrite IH by (discriminate || assumption).
    change (last ((es, None) :: s :: segs) ([], None)) with (last (s :: segs) ([], None)).
    rewrite slots_app, lvs_app. reflexivity.
Qed.

Lemma build_inners_leaves : forall news nx sn,
  flat_map (fun p => leaves (snd p)) (build_inners c nx sn news) =
  flat_map (fun s => lvs (slots (fst s) (snd s))) news.
Proof.
  induction news as [|[es e] news IH]; intros nx sn; [reflexivity|].
  cbn [build_inners flat_map fst snd]. rewrite leaves_inner, IH. reflexivity.
Qed.

Lemma build_inners_length : forall news nx sn, length (build_inners c nx sn news) = length news.
Proof. induction news as [|[es e] news IH]; intros; cbn; [reflexivity|]. now rewrite IH. Qed.

Lemma build_inners_builds : forall h news nx sn, Forall (fun s => fst s <> []) news ->
  Forall2 (builds (seg_inner h) (wf (S h))) (build_inners c nx sn news) news.
Proof.
  induction news as [|[es e] news IH]; intros nx sn HF; [constructor|].
  inversion HF; subst. cbn [build_inners]. constructor; [|now apply IH].
  split; [reflexivity|]. cbn [fst snd] in *. intros lo hi HS. split; [|exact HS].
  destruct es; [congruence|discriminate].
Qed.

Hypothesis Hok : cfg_ok c.

Lemma merge_nodes_ok : forall fuel h lo hi nx es ed start end_ es' ed' nx',
  chain (wf h) lo hi (slots es ed) -> (start < end_ <= start + 2)%nat ->
  merge_nodes c fuel nx es ed start end_ = Ok (Some (es', ed', nx')) ->
  slots es' ed' <> [] /\ chain (wf h) lo hi (slots es' ed') /\
  items (lvs (slots es' ed')) = items (lvs (slots es ed)) /\
  lgood nx (lvs (slots es ed)) nx' (lvs (slots es' ed')).
Proof.
  intros fuel h lo hi nx es ed start end_ es' ed' nx' HC HSE HR.
  unfold merge_nodes in HR. destruct (negb (c_merge c)); [discriminate|].
  destruct (child_at es ed start) as [lt|] eqn:ELt; [|discriminate].
  destruct (children es ed (S start) (end_ - start)) as [ots|] eqn:ECh; [|discriminate].
  apply children_slots in ECh. destruct ECh as [EW HWl].
  rewrite child_at_slots in ELt.
  destruct (nth_error (slots es ed) start) as [[u0 lt0]|] eqn:EN; [|discriminate].
  injection ELt as ->.
  apply nth_error_split in EN. destruct EN as [P [rest [HE HPl]]].
  set (W := firstn (end_ - start) (skipn (S start) (slots es ed))) in *.
  set (Q := skipn (end_ - start) rest).
  assert (HE2 : slots es ed = P ++ (u0, lt) :: W ++ Q).
  { rewrite HE. unfold W, Q. rewrite HE, <- HPl, skipn_S_app, firstn_skipn. reflexivity. }
  clear HE. clearbody W Q. clear rest.
  assert (HWn : W <> []) by (intros ->; cbn in HWl; lia).
  subst start. subst ots. replace end_ with (length P + length W)%nat in * by lia.
  clear HWl. rename HE2 into HE.
  rewrite HE in HC. apply chain_app in HC. destruct HC as [m [HP HC]].
  change ((u0, lt) :: W ++ Q) with (((u0, lt) :: W) ++ Q) in HC.
  apply chain_app in HC. destruct HC as [U [HWc HQ]].
  pose proof HWc as [HW1 [HW2 HW3]].
  assert (Hu0 : exists k0, u0 = Fin k0).
  { pose proof (chain_lt _ _ _ _ HW3 HWn) as Hlt.
    destruct u0; [destruct m; contradiction|eauto|destruct U; contradiction]. }
  destruct Hu0 as [k0 ->].
  assert (Hlvs : lvs (slots es ed) = lvs P ++ (leaves lt ++ lvs W) ++ lvs Q).
  { rewrite HE, lvs_slot, lvs_app, <- !app_assoc. reflexivity. }
  rewrite map_length in HR.
  destruct h as [|h], lt as [lid n0 les|lid n0 les led]; try contradiction.
  - destruct (as_leaves_ok W _ _ HW3) as [olds [EO [HOl [HOc [HOe HOo]]]]]. rewrite EO in HR.
    destruct (redistribute c (lsz c) fuel (les, None) olds) as [[[l news]|]|] eqn:ER;
      try discriminate.
    apply redistribute_ok in ER; [|intros p; apply (ok_lsz c Hok)|assumption|reflexivity| | |lia].
    2: intros ->; cbn in HOl; destruct W; [congruence|discriminate].
    2: now apply edges_ok_none.
    destruct ER as [R0 [R1 [R2 [R3 [R4 R5]]]]]. cbn [fst snd] in *.
    rewrite (last_none _ _ olds) in R5 by (assumption || reflexivity).
    destruct (_ && _)%bool; [discriminate|].
    set (sn := next_of (last (map snd W) (Leaf lid n0 les))) in *.
    set (built := build_leaves c nx sn news) in *.
    set (nl := match news with [] => sn | _ => nx end) in *.
    destruct (enter_parent _ _ _ _ _ _ _ _ _) as [[es1 ed1]|] eqn:EP; [|discriminate].
    injection HR as <- <- <-.
    assert (Hwin : window (wf 0) m U
      ((if match fst l with [] => true | _ => false end then k0 else last_key c (fst l),
        Leaf lid nl (fst l)) :: built) (@None N)).
    { destruct (nil_dec _ (fst l)) as [El|El].
      - rewrite El in *. cbn [app] in R1.
        assert (Hles : les = [] /\ conc news = conc olds).
        { destruct R0 as [tk R0]. symmetry in R0. apply app_eq_nil in R0.
          destruct R0 as [-> _]. auto. }
        destruct Hles as [-> Hcn].
        destruct (nil_dec _ news) as [Hnn|Hnn].
        + unfold built. rewrite Hnn. cbn [build_leaves].
          exists m, [], k0, (Leaf lid nl []). split; [reflexivity|]. split; [reflexivity|].
          split; [eapply chain_lt; [exact HWc|discriminate]|].
          split; [apply leaf_ok_nil|]. intros _. split; [apply leaf_ok_nil|].
          split; [assumption|]. eapply chain_le; exact HW3.
        + apply window_cons; [assumption|apply leaf_ok_nil|].
          assert (Hl : snd (last news ([], None)) = None).
          { destruct news; [congruence|exact R5]. }
          rewrite <- Hl. apply (window_ok seg_leaf); try assumption.
          * intros. eapply leaf_ok_split; eassumption.
          * apply build_leaves_builds.
          * rewrite removelast_nonempty in R4 by assumption. inversion R4; assumption.
          * unfold seg_leaf. rewrite Hcn. exact HOo.
      - assert (Eb : match fst l with [] => true | _ => false end = false)
          by (destruct (fst l); [congruence|reflexivity]).
        rewrite Eb. rewrite <- R5. apply (window_ok seg_leaf).
        + intros. eapply leaf_ok_split; eassumption.
        + constructor; [|apply build_leaves_builds]. split; [reflexivity|]. cbn. auto.
        + discriminate.
        + constructor; assumption.
        + assumption.
        + unfold seg_leaf. rewrite conc_cons, R1.
          eapply leaf_ok_app; [exact HW2|exact HOo|now left|]. eapply chain_le; exact HW3. }
    eapply merge_enter in EP; try eassumption; try reflexivity.
    2: unfold built; rewrite build_leaves_length; lia.
    destruct EP as [E1 [E2 E3]]. split; [assumption|]. split; [assumption|]. split.
    + rewrite E3, Hlvs, !items_app. f_equal. cbn [leaves app].
      rewrite app_assoc. f_equal.
      unfold built. rewrite build_leaves_items.
      change (items [(lid, nl, fst l)]) with (fst l ++ []).
      change (items [(lid, n0, les)]) with (les ++ []). rewrite !app_nil_r, <- HOc. exact R1.
    + rewrite E3, Hlvs.
      change (leaves (Leaf lid n0 les) ++ lvs W) with ((lid, n0, les) :: lvs W).
      change (leaves (Leaf lid nl (fst l)) ++ flat_map (fun p => leaves (snd p)) built ++ lvs Q)
        with (((lid, nl, fst l) :: flat_map (fun p => leaves (snd p)) built) ++ lvs Q).
      apply lgood_ctx. eapply leaves_lgood; try eassumption. reflexivity.
  - destruct (as_inners_ok h W _ _ HW3 HWn) as [olds [EO [HOl [HOe [HOl2 HOc]]]]].
    rewrite EO in HR.
    destruct HW2 as [HW2n HW2].
    pose proof (chain_last_fin _ _ _ _ _ HW2). subst led.
    assert (Hles : les <> []) by (intros ->; apply HW2n; reflexivity).
    destruct (redistribute c (isz c) fuel (les, None) olds) as [[[l news]|]|] eqn:ER;
      try discriminate.
    apply redistribute_ok in ER; [|intros p; apply (ok_isz c Hok)|assumption|reflexivity| |assumption|lia].
    2: intros ->; cbn in HOl; destruct W; [congruence|discriminate].
    destruct ER as [R0 [R1 [R2 [R3 [R4 R5]]]]]. cbn [fst snd] in *.
    destruct (_ && _)%bool; [discriminate|].
    set (sn := next_of (last (map snd W) (Inner lid n0 les None))) in *.
    set (built := build_inners c nx sn news) in *.
    set (nl := match news with [] => sn | _ => nx end) in *.
    destruct (enter_parent _ _ _ _ _ _ _ _ _) as [[es1 ed1]|] eqn:EP; [|discriminate].
    injection HR as <- <- <-.
    assert (El : fst l <> []).
    { destruct R0 as [tk ->]. intros E. apply app_eq_nil in E. tauto. }
    assert (Eb : match fst l with [] => true | _ => false end = false)
      by (destruct (fst l); [congruence|reflexivity]).
    rewrite Eb in EP.
    set (e := snd (last olds ([], None))) in *.
    assert (Hall : chain (wf h) m U (slots (les ++ conc olds) e)).
    { rewrite slots_app. apply chain_app. eauto. }
    assert (Hwin : window (wf (S h)) m U
      ((if false then k0 else last_key c (fst l), Inner lid nl (fst l) (snd l)) :: built) e).
    { rewrite <- R5. apply (window_ok (seg_inner h)).
      - intros lo0 hi0 a b e0 Ha Hb. unfold seg_inner in *.
        destruct (slots_split c _ _ _ _ _ _ Ha Hb) as [S1 [S2 [S3 S4]]].
        split; [assumption|]. split; [assumption|]. split; [assumption|].
        intros Hbn. apply S4. destruct b; [congruence|discriminate].
      - constructor; [|now apply build_inners_builds]. split; [reflexivity|].
        cbn [fst snd]. intros lo0 hi0 HS. split; [|exact HS].
        destruct (fst l); [congruence|discriminate].
      - discriminate.
      - constructor; assumption.
      - assumption.
      - unfold seg_inner. rewrite conc_cons, R1, R5. exact Hall. }
    eapply merge_enter with (h := S h) (U := U) (m := m) in EP; try eassumption; try reflexivity.
    2: unfold built; rewrite build_inners_length; lia.
    2: { intros HQn. pose proof (chain_lt _ _ _ _ HQ HQn) as HUl.
         assert (HUf : exists z, U = Fin z).
         { destruct U as [|z|]; [|eauto|destruct hi; contradiction].
           pose proof (chain_lt _ _ _ _ HWc ltac:(discriminate)) as HF.
           destruct m; contradiction. }
         destruct HUf as [z ->]. eapply chain_last_fin; exact Hall. }
    destruct EP as [E1 [E2 E3]]. split; [assumption|]. split; [assumption|].
    assert (HLV : lvs (slots es1 ed1) = lvs (slots es ed)).
    { rewrite E3, Hlvs. f_equal. rewrite app_assoc. f_equal.
      unfold built. rewrite build_inners_leaves, !leaves_inner.
      change (lvs (slots (fst l) (snd l)) ++ flat_map (fun s => lvs (slots (fst s) (snd s))) news)
        with (flat_map (fun s : list (Z * tree) * option tree => lvs (slots (fst s) (snd s))) (l :: news)).
      rewrite segs_leaves by (discriminate || assumption).
      rewrite R5, conc_cons, R1, slots_app, lvs_app. f_equal. exact HOl2. }
    rewrite HLV. split; [reflexivity|]. apply lgood_refl. lia.
Qed.

End WithCfg.
