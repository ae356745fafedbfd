(** * Proofs about the rebuilding of the dependency links: the links are those of the CP. *)
From Coq Require Import ZArith List Bool Arith Lia.
From Verif Require Import Base WbModel WbSpec WbProofs DagModel DagSpec DagProofs DagProofs2.
Import ListNotations.

Lemma nxt_unfold : forall f g b u,
  nxt f g b u <-> exists y, f b = Some y /\ (if g y then nxt f g y u else u = y).
Proof.
  intros f g b u. split.
  - intros H. inversion H; subst.
    + exists u. rewrite H1. auto.
    + exists u0. rewrite H1. auto.
  - intros [y [H1 H2]]. destruct (g y) eqn:E; [eapply NOver; eassumption|].
    subst. now apply NHere.
Qed.

Lemma nxt_same : forall f g b b' u, f b = f b' -> nxt f g b u <-> nxt f g b' u.
Proof. intros f g b b' u H. rewrite !nxt_unfold, H. reflexivity. Qed.

Lemma nxt_compose : forall f f' g g', (forall y, g y = true -> f' y = f y) ->
  (forall y, g y = true -> g' y = true) ->
  forall b u, f' b = f b ->
  (nxt f' g' b u <-> exists x, nxt f g b x /\ (if g' x then nxt f' g' x u else u = x)).
Proof.
  intros f f' g g' H1 H2 b u Hb. split.
  - intros H. induction H as [b u K1 K2|b u v K1 K2 K3 IH].
    + exists u. rewrite K2. split; [|reflexivity]. apply NHere; [congruence|].
      destruct (g u) eqn:E; [|reflexivity]. rewrite H2 in K2; congruence.
    + destruct (g u) eqn:E.
      * destruct IH as [x [X1 X2]]; [now apply H1|]. exists x. split; [|assumption].
        eapply NOver; [rewrite <- Hb; exact K1|assumption|assumption].
      * exists u. rewrite K2. split; [|assumption]. apply NHere; [congruence|assumption].
  - intros [x [X1 X2]]. induction X1 as [b x K1 K2|b y x K1 K2 K3 IH].
    + apply nxt_unfold. exists x. split; [congruence|assumption].
    + eapply NOver; [rewrite Hb; exact K1|now apply H2|]. apply IH; [now apply H1|assumption].
Qed.

Lemma nxt_last : forall f g b x, nxt f g b x -> exists y, f y = Some x /\ (y = b \/ g y = true).
Proof.
  intros f g b x H. induction H as [b x K1 K2|b y x K1 K2 K3 IH].
  - exists b. auto.
  - destruct IH as [z [Z1 [->|Z2]]]; eauto.
Qed.

Section Step.
Variable isnew : nat -> bool.
Variable lvl : nat -> nat.
Variable pos : nat -> Z.
Notation lower := (lower lvl pos).

Lemma nxt_lower : forall f g, (forall b u, f b = Some u -> lower b u) ->
  forall b u, nxt f g b u -> lower b u.
Proof.
  intros f g Hl b u H. induction H; [auto|]. eapply lower_trans; [|eassumption]. auto.
Qed.

(** The two ways of following agree, before and after a transaction. *)
Definition agree (F : nat -> bool) (f h : nat -> option nat) : Prop :=
  (forall b, F b = false -> forall u, nxt f F b u <-> nxt h F b u) /\
  (forall b, F b = true -> (exists d, f d = Some b) -> forall u, nxt f F b u <-> nxt h F b u).

Lemma agree_step : forall (F : nat -> bool) (f f' h h' : nat -> option nat) p c P news freeds,
  (forall x, x <> c -> ~ In x news -> ~ In x freeds -> f' x = f x) ->
  (forall x, x <> c -> ~ In x news -> ~ In x freeds -> h' x = h x) ->
  f' c = Some P ->
  (f c = Some P \/ P = p \/ f p = Some P) ->
  h' c = (if F P then h P else Some P) ->
  (forall x, In x news -> f' x = if isnew c then f' c else Some c) ->
  (forall x, In x news \/ In x freeds -> h' x = if isnew c then h' c else Some c) ->
  (forall x, In x freeds -> (f' x = f x \/ f' x = if isnew c then f' c else Some c) /\
      ((exists d, f' d = Some x) -> f' x = if isnew c then f' c else Some c)) ->
  F c = false -> F p = false -> (forall x, In x news \/ In x freeds -> F x = false /\ lower x c) ->
  (forall b u, f b = Some u -> lower b u) -> (forall b u, h b = Some u -> lower b u) ->
  (forall b u, f' b = Some u -> lower b u) -> 
  agree F f h -> agree (fun x => F x || mem x freeds) f' h'.
Proof.
  intros F f f' h h' p c P news freeds Of Oh Ec EP Eh Nf Nh Ff Fc Fp Fx Lf Lh Lf' [I1 I2].
  set (F' := fun x => F x || mem x freeds).
  assert (HcP : lower c P) by auto.
  assert (Hcf : ~ In c freeds).
  { intros H. destruct (Fx c (or_intror H)) as [_ X]. now apply lower_irrefl in X. }
  assert (Hcn : ~ In c news).
  { intros H. destruct (Fx c (or_introl H)) as [_ X]. now apply lower_irrefl in X. }
  assert (Hof : forall y, F y = true -> f' y = f y).
  { intros y Hy. apply Of; intros X; subst; try congruence; destruct (Fx y); auto; congruence. }
  assert (Hoh : forall y, F y = true -> h' y = h y).
  { intros y Hy. apply Oh; intros X; subst; try congruence; destruct (Fx y); auto; congruence. }
  assert (HF' : forall y, F y = true -> F' y = true) by (intros y Hy; unfold F'; now rewrite Hy).
  assert (Hup : forall x, lower c x -> F x = false -> F' x = false).
  { intros x Hx Hf. unfold F'. rewrite Hf. apply mem_false. intros X.
    destruct (Fx x (or_intror X)) as [_ Y]. assert (Z := lower_trans lvl pos _ _ _ Hx Y).
    now apply lower_irrefl in Z. }
  assert (HF'c : F' c = false) by (unfold F'; rewrite Fc; now apply mem_false).
  (* P has someone below it before the transaction *)
  assert (HPd : F P = true -> exists d, f d = Some P).
  { intros HP. destruct EP as [E|[->|E]]; [eauto|congruence|eauto]. }
  (* the node changed in place *)
  assert (Jc : forall u, nxt f' F' c u <-> nxt h' F' c u).
  { intros u. destruct (F P) eqn:EF.
    - assert (H1 : nxt f' F' c u <-> nxt f' F' P u).
      { rewrite nxt_unfold. rewrite Ec. split.
        - intros [y [Y1 Y2]]. injection Y1 as <-. now rewrite HF' in Y2.
        - intros H. exists P. rewrite HF' by assumption. auto. }
      assert (H2 : nxt h' F' c u <-> nxt h' F' P u).
      { apply nxt_same. rewrite Eh. symmetry. now apply Hoh. }
      rewrite H1, H2.
      rewrite (nxt_compose f f' F F' Hof HF' P u (Hof P EF)).
      rewrite (nxt_compose h h' F F' Hoh HF' P u (Hoh P EF)).
      assert (I := I2 P EF (HPd eq_refl)).
      split; intros [x [X1 X2]]; exists x; (split; [now apply I|]).
      + assert (HX : F' x = false).
        { apply Hup; [|now apply nxt_freed in X1]. eapply lower_trans; [exact HcP|].
          exact (nxt_lower _ _ Lf _ _ X1). }
        now rewrite HX in *.
      + assert (HX : F' x = false).
        { apply Hup; [|now apply nxt_freed in X1]. eapply lower_trans; [exact HcP|].
          exact (nxt_lower _ _ Lh _ _ X1). }
        now rewrite HX in *.
    - rewrite (nxt_unfold f'), (nxt_unfold h'), Ec, Eh. 
      assert (HX : F' P = false) by (now apply Hup).
      split; intros [y [Y1 Y2]]; exists y; split; auto; injection Y1 as <-; now rewrite HX in *. }
  (* a node whose link goes to c or through c *)
  assert (Jr : forall x u, f' x = (if isnew c then f' c else Some c) ->
                 h' x = (if isnew c then h' c else Some c) -> nxt f' F' x u <-> nxt h' F' x u).
  { intros x u E1 E2. destruct (isnew c).
    - rewrite (nxt_same f' F' x c) by assumption. rewrite (nxt_same h' F' x c) by assumption. apply Jc.
    - rewrite (nxt_unfold f'), (nxt_unfold h'), E1, E2.
      split; intros [y [Y1 Y2]]; exists y; split; auto; injection Y1 as <-; now rewrite HF'c in *. }
  (* a node whose own link did not change *)
  assert (Jo : forall b, f' b = f b -> h' b = h b -> (forall u, nxt f F b u <-> nxt h F b u) ->
                 forall u, nxt f' F' b u <-> nxt h' F' b u).
  { intros b E1 E2 I u.
    rewrite (nxt_compose f f' F F' Hof HF' b u E1), (nxt_compose h h' F F' Hoh HF' b u E2).
    assert (HX : forall x, nxt f F b x -> F' x = true ->
               forall v, nxt f' F' x v <-> nxt h' F' x v).
    { intros x X1 X2 v. assert (X3 := nxt_freed _ _ _ _ X1).
      unfold F' in X2. rewrite X3 in X2. apply mem_iff in X2.
      destruct (nxt_last _ _ _ _ X1) as [y [Y1 Y2]].
      apply Jr; [|now apply Nh; right]. apply (Ff x X2). exists y.
      destruct Y2 as [->|Y2]; [congruence|]. now rewrite Hof. }
    split; intros [x [X1 X2]]; exists x.
    - split; [now apply I|]. destruct (F' x) eqn:E; [|assumption]. now apply (HX x X1 E).
    - apply I in X1. split; [assumption|]. destruct (F' x) eqn:E; [|assumption]. now apply (HX x X1 E). }
  split.
  - intros b Hb u. unfold F' in Hb. apply orb_false_iff in Hb. destruct Hb as [Hb1 Hb2].
    apply mem_false in Hb2.
    destruct (Nat.eq_dec b c) as [->|Hbc]; [apply Jc|].
    destruct (in_dec Nat.eq_dec b news) as [Hn|Hn]; [apply Jr; auto|].
    apply Jo; auto.
  - intros b Hb [d Hd] u. destruct (in_dec Nat.eq_dec b freeds) as [Hbf|Hbf].
    { apply Jr; [|auto]. apply (Ff b Hbf). eauto. }
    assert (HFb : F b = true).
    { unfold F' in Hb. apply orb_true_iff in Hb. destruct Hb as [Hb|Hb]; [assumption|].
      apply mem_iff in Hb. contradiction. }
    apply Jo; auto. apply I2; [assumption|].
    assert (HPb : Some P = Some b -> exists e, f e = Some b).
    { intros X. injection X as ->. now apply HPd. }
    assert (Hrc : (if isnew c then f' c else Some c) = Some b -> exists e, f e = Some b).
    { destruct (isnew c); [now rewrite Ec|]. intros X. injection X as ->. congruence. }
    destruct (Nat.eq_dec d c) as [->|Hdc]; [rewrite Ec in Hd; now apply HPb|].
    destruct (in_dec Nat.eq_dec d news) as [Hn|Hn]; [rewrite Nf in Hd; auto|].
    destruct (in_dec Nat.eq_dec d freeds) as [Hf|Hf].
    + destruct (Ff d Hf) as [[X|X] _]; rewrite X in Hd; eauto.
    + rewrite Of in Hd by assumption. eauto.
Qed.

Lemma agree_root : forall (F : nat -> bool) (f f' h h' : nat -> option nat) m r,
  (forall x, x <> r -> f' x = f x) -> (forall x, x <> r -> h' x = h x) ->
  f' r = Some m -> h' r = Some m -> F m = false -> F r = false ->
  agree F f h -> agree F f' h'.
Proof.
  intros F f f' h h' m r Of Oh Ef Eh Fm Fr [I1 I2].
  assert (Hof : forall y, F y = true -> f' y = f y) by (intros y Hy; apply Of; congruence).
  assert (Hoh : forall y, F y = true -> h' y = h y) by (intros y Hy; apply Oh; congruence).
  assert (Jo : forall b, f' b = f b -> h' b = h b -> (forall u, nxt f F b u <-> nxt h F b u) ->
                 forall u, nxt f' F b u <-> nxt h' F b u).
  { intros b E1 E2 I u.
    rewrite (nxt_compose f f' F F Hof (fun _ H => H) b u E1).
    rewrite (nxt_compose h h' F F Hoh (fun _ H => H) b u E2).
    split; intros [x [X1 X2]]; exists x; (split; [now apply I|]);
      rewrite (nxt_freed _ _ _ _ X1) in *; assumption. }
  split.
  - intros b Hb u. destruct (Nat.eq_dec b r) as [->|Hbr]; [|apply Jo; auto].
    rewrite (nxt_unfold f'), (nxt_unfold h'), Ef, Eh.
    split; intros [y [Y1 Y2]]; exists y; split; auto; injection Y1 as <-; now rewrite Fm in *.
  - intros b Hb [d Hd] u. apply Jo; auto. apply I2; [assumption|].
    destruct (Nat.eq_dec d r) as [->|Hdr]; [congruence|]. rewrite Of in Hd by assumption. eauto.
Qed.
End Step.

Section Run.
Variable isnew : nat -> bool.
Variable lvl : nat -> nat.
Variable pos : nat -> Z.
Variable ismeta : nat -> bool.
Notation lower := (lower lvl pos).
Notation LInv := (LInv isnew lvl pos).
Notation DInv := (DInv isnew lvl pos ismeta).

Record RInv (intro roots gone : list nat) (F : nat -> bool) (w : wb) (d : dag) : Prop := mkR {
  ri_l : LInv intro roots w;
  ri_none : forall n, isnew n = true -> ~ In n intro -> above w n = None;
  ri_d : DInv d;
  ri_new : forall b, rb_new (d_buf d b) = isnew b && mem b intro;
  ri_fr : forall b, rb_freed (d_buf d b) = F b;
  ri_gone : forall b, F b = true -> In b gone }.

Definition merged1 (o : wop) (b : nat) : bool :=
  match o with OTransact _ _ _ freeds => mem b freeds | _ => false end.
Definition root_ok (w : wb) (o : wop) : Prop :=
  match o with ORoot m r => above w r = None \/ above w r = Some m | _ => True end.

Lemma above_lower : forall intro roots w, LInv intro roots w ->
  forall b u, above w b = Some u -> lower b u.
Proof. intros intro roots w HL b u E. apply (li_up _ _ _ _ _ _ HL) in E. tauto. Qed.
Lemma ups_lower : forall d, DInv d -> forall b u, ups d b = Some u -> lower b u.
Proof. intros d HD b u E. apply (di_up _ _ _ _ _ HD) in E. tauto. Qed.

Lemma mem_app : forall b l l', mem b (l ++ l') = mem b l || mem b l'.
Proof. intros. unfold mem. apply existsb_app. Qed.

Lemma op_ok : forall intro roots gone F w d o, RInv intro roots gone F w d ->
  strict_op isnew lvl pos ismeta gone intro o = true ->
  exists w' d' roots', wexec w o = Some w' /\ process_all d (record_of w' o) = Some d' /\
    RInv (intro_op intro o) roots' (frees o ++ gone) (fun b => F b || merged1 o b) w' d' /\
    (forall x, In x (d_ids d') <-> In x (named (record_of w' o)) \/ In x (d_ids d)) /\
    (root_ok w o -> agree F (above w) (ups d) ->
     agree (fun b => F b || merged1 o b) (above w') (ups d')).
Proof.
  intros intro roots gone F w d o [HL HN HD Hnw Hfr Hg] HS.
  assert (HO : legal_op isnew lvl pos intro o = true).
  { unfold strict_op in HS. apply andb_true_iff in HS. destruct HS as [HS _].
    apply andb_true_iff in HS. tauto. }
  assert (HF0 : forall b, F b || false = F b) by (intros; apply orb_false_r).
  assert (HAG : forall f f' h h', (forall x, f' x = f x) -> (forall x, h' x = h x) ->
                  agree F f h -> agree (fun b => F b || false) f' h').
  { intros f f' h h' E1 E2 [A1 A2].
    assert (X1 : forall b u, nxt f' (fun b => F b || false) b u <-> nxt f F b u).
    { intros b u; split; apply nxt_ext; auto. }
    assert (X2 : forall b u, nxt h' (fun b => F b || false) b u <-> nxt h F b u).
    { intros b u; split; apply nxt_ext; auto. }
    split.
    - intros b Hb u. rewrite X1, X2. apply A1. now rewrite <- HF0.
    - intros b Hb [y Hy] u. rewrite X1, X2. apply A2; [now rewrite <- HF0|].
      exists y. now rewrite <- E1. }
  destruct (exec_linv isnew lvl pos intro roots w o HL HO HN) as [w' [E [H1 [H2 [H3 [H4 H5]]]]]].
  destruct o as [b|p c news freeds|m r|b].
  - exists w', d, roots. cbn [record_of process_all frees app merged1]. ands; auto.
    + constructor; auto.
      * intros x. now rewrite HF0.
      * intros x. rewrite HF0. apply Hg.
    + intros x. cbn. tauto.
    + intros _. apply HAG; auto.
  - apply strict_tx in HS.
    assert (HFd := exec_freed isnew lvl pos ismeta gone intro roots w p c news freeds w' HL HN HS E).
    destruct HS as (Hkp & Hkc & Hlv & Hnd & Hn & Hf & HNf & Huse & Hne).
    assert (HR : record_of w' (OTransact p c news freeds) = [Rec (above w' c) (Some c) news freeds]).
    { cbn [record_of]. unfold above. destruct news; [|reflexivity]. destruct freeds; [|reflexivity].
      destruct Hne; congruence. }
    destruct H5 as [K1 [K2 K3]].
    assert (Hcf : ~ In c freeds).
    { intros X. apply Hf in X. destruct X as [X _]. now apply lower_irrefl in X. }
    specialize (K2 Hcf).
    assert (Hgn : forall b, b = p \/ b = c \/ In b news \/ In b freeds -> F b = false).
    { intros b Hb. destruct (F b) eqn:Eb; [|reflexivity]. apply Hg in Eb. apply Huse in Hb. tauto. }
    assert (Hkn : forall b, known isnew intro b = true -> isnew b && mem b intro = isnew b).
    { intros b Hb. unfold known in Hb. destruct (isnew b); [|reflexivity]. exact Hb. }
    assert (HP : exists P, above w' c = Some P /\
               (above w c = Some P \/ P = p \/ above w p = Some P)).
    { rewrite K2. destruct (above w c) as [u|] eqn:Eu; [eauto|]. unfold real.
      destruct (isnew p) eqn:Ep; [|eauto].
      assert (X := known_above isnew lvl pos _ _ _ p HL Hkp Ep).
      destruct (above w p) as [u|] eqn:Eu2; [eauto|congruence]. }
    destruct HP as [P [EP HP]]. rewrite EP in HR.
    destruct (li_up _ _ _ _ _ _ H1 c P EP) as [P1 [P2 P3]].
    assert (Hdis : forall x, In x freeds -> ~ In x news).
    { intros x Hx X. destruct (Hn x X) as [X1 [X2 X3]]. apply Hf in Hx. destruct Hx as [_ Hx].
      unfold known in Hx. rewrite X1 in Hx. cbn in Hx. now apply (proj1 (mem_iff x intro)) in Hx. }
    destruct (process_tx_ok isnew lvl pos ismeta d P c news freeds HD P1 P2)
      as [d' [E' [D1 [D2 [D3 [D4 [D5 [D6 D7]]]]]]]].
    { apply Huse. auto. }
    { rewrite Hnw. now apply Hkn. }
    { rewrite Hfr. apply Hgn. auto. }
    { intros x Hx. destruct (Hn x Hx) as [X1 [X2 X3]]. ands; auto. apply Huse. auto. }
    { intros x Hx. destruct (Hf x Hx) as [X1 X2]. ands; auto. apply Huse. auto. }
    exists w', d', roots. rewrite HR. cbn [process_all]. rewrite E'. ands; auto.
    + constructor; auto.
      * intros b. rewrite D6, Hnw. cbn [intro_op]. rewrite mem_app.
        destruct (mem b news) eqn:Eb.
        -- apply mem_iff in Eb. destruct (Hn b Eb) as [X1 _]. rewrite X1, orb_true_r. reflexivity.
        -- rewrite orb_false_r. reflexivity.
      * intros b. rewrite D7, Hfr. reflexivity.
      * intros b Hb. cbn [merged1 frees] in *. apply in_app_iff. apply orb_true_iff in Hb.
        destruct Hb as [Hb|Hb]; [right; auto|left; now apply mem_iff].
    + intros x. rewrite D2. cbn [named flat_map r_parent r_child r_news r_freeds].
      rewrite app_nil_r, !in_app_iff. cbn. intuition.
    + intros _ HA. cbn [merged1].
      apply (agree_step isnew lvl pos F (above w) (above w') (ups d) (ups d') p c P news freeds); auto.
      * rewrite D3. now rewrite Hfr.
      * intros x Hx. split; [apply Hgn; tauto|]. destruct Hx as [Hx|Hx]; [now apply Hn|now apply Hf].
      * eapply above_lower; eassumption.
      * eapply ups_lower; eassumption.
      * eapply above_lower; eassumption.
  - assert (HS' := HS). unfold strict_op in HS'. apply andb_true_iff in HS'. destruct HS' as [HS' HM].
    apply andb_true_iff in HS'. destruct HS' as [_ HG]. apply andb_true_iff in HM. destruct HM as [Hm Hr].
    apply negb_true_iff in Hr. cbn [uses forallb] in HG.
    apply andb_true_iff in HG. destruct HG as [HG1 HG]. apply andb_true_iff in HG. destruct HG as [HG2 _].
    apply negb_true_iff in HG1, HG2. apply mem_false in HG1, HG2.
    cbn [legal_op] in HO. apply andb_true_iff in HO. destruct HO as [Hmn Hlv].
    apply negb_true_iff in Hmn. apply Nat.ltb_lt in Hlv.
    assert (HFm : F m = false) by (destruct (F m) eqn:X; [apply Hg in X; contradiction|reflexivity]).
    assert (HFr : F r = false) by (destruct (F r) eqn:X; [apply Hg in X; contradiction|reflexivity]).
    assert (HR : record_of w' (ORoot m r) =
                 [if isnew r then Rec (Some m) None [r] [] else Rec (Some m) (Some r) [] []]).
    { cbn [record_of]. rewrite (li_new _ _ _ _ _ _ H1). reflexivity. }
    destruct (process_root_ok isnew lvl pos ismeta d m r HD Hmn) as [d' [E' [D1 [D2 [D3 [D4 [D5 D6]]]]]]]; auto.
    { now left. }
    { now rewrite Hfr. }
    exists w', d', (r :: roots). rewrite HR. cbn [process_all]. rewrite E'.
    cbn [frees app merged1]. ands; auto.
    + constructor; auto.
      * intros b. rewrite D5, Hnw. cbn [intro_op mem existsb]. fold (mem b intro).
        destruct (Nat.eqb_spec b r) as [->|Hb]; cbn.
        -- destruct (isnew r); cbn; [now rewrite orb_true_r|reflexivity].
        -- now rewrite orb_false_r.
      * intros b. rewrite D6, Hfr. now rewrite HF0.
      * intros b. rewrite HF0. apply Hg.
    + intros x. rewrite D2. destruct (isnew r); cbn; intuition.
    + intros HRk HA. destruct H5 as [K1 K2]. cbn [root_ok] in HRk.
      assert (HA' : agree F (above w') (ups d')).
      { apply (agree_root F (above w) (above w') (ups d) (ups d') m r); auto.
        rewrite K1. destruct HRk as [X|X]; now rewrite X. }
      destruct HA' as [A1 A2]. split.
      * intros b Hb u. rewrite HF0 in Hb.
        assert (X1 : nxt (above w') (fun b => F b || false) b u <-> nxt (above w') F b u)
          by (split; apply nxt_ext; auto).
        assert (X2 : nxt (ups d') (fun b => F b || false) b u <-> nxt (ups d') F b u)
          by (split; apply nxt_ext; auto).
        rewrite X1, X2. now apply A1.
      * intros b Hb Hd u. rewrite HF0 in Hb.
        assert (X1 : nxt (above w') (fun b => F b || false) b u <-> nxt (above w') F b u)
          by (split; apply nxt_ext; auto).
        assert (X2 : nxt (ups d') (fun b => F b || false) b u <-> nxt (ups d') F b u)
          by (split; apply nxt_ext; auto).
        rewrite X1, X2. now apply A2.
  - exists w', d, roots. cbn [record_of process_all frees app merged1]. ands; auto.
    + constructor; auto.
      * intros x. now rewrite HF0.
      * intros x. rewrite HF0. intros H. right. now apply Hg.
    + intros x. cbn. tauto.
    + intros _. apply HAG; auto.
Qed.

Lemma process_all_app : forall j1 j2 d,
  process_all d (j1 ++ j2) = match process_all d j1 with Some d' => process_all d' j2 | None => None end.
Proof.
  induction j1 as [|r j1 IH]; intros j2 d; [reflexivity|]. cbn. destruct (process d r); [apply IH|reflexivity].
Qed.
Lemma named_app : forall j1 j2, named (j1 ++ j2) = named j1 ++ named j2.
Proof. intros. unfold named. apply flat_map_app. Qed.

Lemma run_ok : forall l intro roots gone F w d, RInv intro roots gone F w d ->
  strict isnew lvl pos ismeta gone intro l = true ->
  exists w' j d' intro' roots' gone', wrunj w l = Some (w', j) /\ process_all d j = Some d' /\
    RInv intro' roots' gone' (fun b => F b || merged l b) w' d' /\
    (forall x, In x (d_ids d') <-> In x (named j) \/ In x (d_ids d)) /\
    (roots_free w l = true -> agree F (above w) (ups d) ->
     agree (fun b => F b || merged l b) (above w') (ups d')).
Proof.
  induction l as [|o l IH]; intros intro roots gone F w d HR HS.
  - exists w, [], d, intro, roots, gone. cbn [wrunj process_all named flat_map].
    assert (HF0 : forall b, F b || merged [] b = F b) by (intros; apply orb_false_r).
    ands; auto.
    + destruct HR as [X1 X2 X3 X4 X5 X6]. constructor; auto.
      * intros b. now rewrite HF0.
      * intros b. rewrite HF0. apply X6.
    + intros x. cbn. tauto.
    + intros _ [A1 A2].
      assert (X : forall f b u, nxt f (fun b => F b || merged [] b) b u <-> nxt f F b u)
        by (intros; split; apply nxt_ext; auto).
      split.
      * intros b Hb u. rewrite !X. apply A1. now rewrite <- HF0.
      * intros b Hb Hd u. rewrite !X. apply A2; [now rewrite <- HF0|assumption].
  - cbn [strict] in HS. apply andb_true_iff in HS. destruct HS as [HS1 HS2].
    destruct (op_ok _ _ _ _ _ _ o HR HS1) as [w1 [d1 [roots1 [E1 [P1 [R1 [I1 A1]]]]]]].
    destruct (IH _ _ _ _ _ _ R1 HS2) as (w2 & j & d2 & intro2 & roots2 & gone2 & E2 & P2 & R2 & I2 & A2).
    exists w2, (record_of w1 o ++ j), d2, intro2, roots2, gone2.
    cbn [wrunj]. rewrite E1, E2.
    assert (HFe : forall b, (F b || merged1 o b) || merged l b = F b || merged (o :: l) b).
    { intros b. cbn [merged existsb]. fold (merged l b). rewrite orb_assoc. reflexivity. }
    ands; auto.
    + rewrite process_all_app, P1. exact P2.
    + destruct R2 as [X1 X2 X3 X4 X5 X6]. constructor; auto.
      * intros b. rewrite X5. apply HFe.
      * intros b. rewrite <- HFe. apply X6.
    + intros x. rewrite I2, I1, named_app, in_app_iff. tauto.
    + intros HRF HA. cbn [roots_free] in HRF. apply andb_true_iff in HRF. destruct HRF as [RF1 RF2].
      rewrite E1 in RF2.
      assert (HA1 : agree (fun b => F b || merged1 o b) (above w1) (ups d1)).
      { apply A1; [|assumption]. destruct o; cbn [root_ok]; auto.
        destruct (above w r) as [u|]; [|auto]. apply Nat.eqb_eq in RF1. subst. auto. }
      destruct (A2 RF2 HA1) as [B1 B2].
      assert (X : forall f b u, nxt f (fun b => F b || merged (o :: l) b) b u <->
                                nxt f (fun b => (F b || merged1 o b) || merged l b) b u)
        by (intros; split; apply nxt_ext; auto).
      split.
      * intros b Hb u. rewrite !X. apply B1. now rewrite HFe.
      * intros b Hb Hd u. rewrite !X. apply B2; [now rewrite HFe|assumption].
Qed.

Lemma rinv_init : RInv [] [] [] (fun _ => false) (wb_init isnew) empty.
Proof.
  constructor; auto.
  - apply linv_init.
  - apply dinv_empty.
  - intros b. cbn. now rewrite andb_false_r.
  - discriminate.
Qed.

Lemma nxt_next_up : forall w g b u, nxt (above w) g b u <-> next_up w g b u.
Proof.
  intros w g b u. split; intros H; induction H.
  - now apply NextHere.
  - eapply NextOver; eassumption.
  - now apply NHere.
  - eapply NOver; eassumption.
Qed.

Theorem rebuild_thm : forall l order, strict isnew lvl pos ismeta [] [] l = true ->
  exists w j, wrunj (wb_init isnew) l = Some (w, j) /\
  ((forall x, In x order <-> In x (named j)) ->
   exists d, rebuild ismeta j order = Some d /\
    (forall x, In x (d_ids d) <-> In x (named j)) /\ NoDup (d_ids d) /\
    (forall b, In b (named j) -> rb_freed (d_buf d b) = merged l b) /\
    (forall u, rb_wait (d_buf d u) =
       Z.of_nat (length (filter (fun b => match rb_up (d_buf d b) with Some x => Nat.eqb x u | None => false end)
                                (d_ids d)))) /\
    (roots_free (wb_init isnew) l = true ->
     forall b u, merged l b = false -> (rb_up (d_buf d b) = Some u <-> next_up w (merged l) b u))).
Proof.
  intros l order HS.
  destruct (run_ok l _ _ _ _ _ _ rinv_init HS)
    as (w & j & d & intro & roots & gone & E & P & R & I & A).
  exists w, j. split; [exact E|]. intros Hord. destruct R as [HL HN HD Hnw Hfr Hg].
  cbn [orb] in *.
  destruct (modify_all_ok isnew lvl pos ismeta order d HD) as (d' & M & HD' & Hids & X & Hfree & Hout & N2 & F2).
  assert (HidsN : forall x, In x (d_ids d') <-> In x (named j)).
  { intros x. rewrite Hids, I. cbn. tauto. }
  assert (HF : forall b u, ups d' b = Some u -> frd d' u = false).
  { intros b u Hu. assert (Hb : In b order).
    { apply Hord, HidsN. now apply (di_up _ _ _ _ _ HD') in Hu. }
    unfold frd. rewrite F2. exact (Hfree b u Hb Hu). }
  assert (HSane : forallb (sane ismeta (d_buf d')) order = true).
  { apply forallb_forall. intros b _. eapply sane_ok; eassumption. }
  exists d'. unfold rebuild. rewrite P, M, HSane. ands; auto.
  - apply (di_nd _ _ _ _ _ HD').
  - intros b _. rewrite F2. apply Hfr.
  - apply (di_cnt _ _ _ _ _ HD').
  - intros HRF b u Hb.
    assert (HA0 : agree (fun _ => false) (above (wb_init isnew)) (ups empty)).
    { split; [|discriminate]. intros x _ v. split; intros H; inversion H; discriminate. }
    destruct (A HRF HA0) as [A1 _]. specialize (A1 b Hb u). cbn [orb] in A1.
    rewrite <- nxt_next_up. rewrite (A1).
    assert (XX : nxt (ups d) (merged l) b u <-> nxt (ups d') (frd d') b u).
    { rewrite <- X. split; apply nxt_ext; auto; intros y; unfold frd; now rewrite Hfr. }
    rewrite XX. change (rb_up (d_buf d' b)) with (ups d' b). split.
    + intros H. apply NHere; [assumption|]. eapply HF; eassumption.
    + intros H. apply nxt_unfold in H. destruct H as [y [Y1 Y2]].
      rewrite (HF _ _ Y1) in Y2. congruence.
Qed.
End Run.
