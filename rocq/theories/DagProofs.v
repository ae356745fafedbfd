(** * Proofs about the rebuilding of the dependency links. *)
From Coq Require Import ZArith List Bool Arith Lia.
From Verif Require Import Base WbModel WbSpec WbProofs DagModel DagSpec.
Import ListNotations.

Lemma updr_same : forall m i f, upd_r m i f i = f (m i).
Proof. intros. unfold upd_r. now rewrite Nat.eqb_refl. Qed.
Lemma updr_other : forall m i f j, j <> i -> upd_r m i f j = m j.
Proof. intros m i f j H. unfold upd_r. apply Nat.eqb_neq in H. now rewrite H. Qed.

Lemma same_iff : forall a b, same a b = true <-> a = b.
Proof.
  intros [x|] [y|]; cbn; try (split; congruence). rewrite Nat.eqb_eq. split; congruence.
Qed.

(** ** The links at runtime *)
Section Run.
Variable isnew : nat -> bool.
Variable lvl : nat -> nat.
Variable pos : nat -> Z.
Variable ismeta : nat -> bool.
Notation lower := (lower lvl pos).
Notation LInv := (LInv isnew lvl pos).
Notation real := (real isnew).

Lemma no_wait_no_down : forall intro roots w f d, LInv intro roots w ->
  b_wait (w_buf w f) = 0%Z -> above w d <> Some f.
Proof.
  intros intro roots w f d HL Hz E. destruct (li_cnt _ _ _ _ _ _ HL) as [lk [H1 [H2 H3]]].
  rewrite H3 in Hz. assert (Hc : cnt (above w) f lk = 0%nat) by lia.
  rewrite cnt_zero_iff in Hc. refine (Hc d _ E). apply H2. congruence.
Qed.

Lemma real_lower : forall intro roots w c r n, LInv intro roots w ->
  real w c = Some r -> lower n c -> lower n r.
Proof.
  intros intro roots w c r n HL HR Hn. unfold WbProofs.real in HR. destruct (isnew c).
  - apply (li_up _ _ _ _ _ _ HL) in HR. destruct HR as [_ [H _]]. eapply lower_trans; eassumption.
  - now injection HR as <-.
Qed.

Lemma link_freed_down : forall l intro roots w c w',
  LInv intro roots w -> In c (w_list w) -> (isnew c = true -> above w c <> None) ->
  (forall n, In n l -> lower n c) -> NoDup l -> link_freed w c l = Some w' ->
  forall f, In f l ->
    (above w' f = above w f \/ above w' f = real w c) /\
    ((exists d, above w' d = Some f) -> above w' f = real w c).
Proof.
  induction l as [|n l IH]; intros intro roots w c w' HL HI HK Hl HN HE f Hf; [destruct Hf|].
  cbn [link_freed] in HE. inversion HN as [|x y Hn HN']; subst x y.
  assert (Hlo := Hl n (or_introl eq_refl)).
  assert (Hnc : n <> c) by (intros ->; now apply lower_irrefl in Hlo).
  destruct (Z.eqb_spec (b_wait (w_buf w n)) 0) as [Ez|Ez].
  - assert (IH' := IH intro roots w c w' HL HI HK (fun x Hx => Hl x (or_intror Hx)) HN' HE).
    destruct (link_freed_linv isnew lvl pos l intro roots w c HL HI HK) as [w2 [E2 [G1 [G2 [G3 G4]]]]].
    { intros; apply Hl; now right. }
    rewrite E2 in HE. injection HE as ->.
    destruct Hf as [<-|Hf]; [|now apply IH']. split.
    + left. apply G3. now left.
    + intros [d Hd]. exfalso. destruct (in_dec Nat.eq_dec d l) as [Hdl|Hdl].
      * destruct (IH' d Hdl) as [[E|E] _].
        -- rewrite E in Hd. exact (no_wait_no_down _ _ _ _ _ HL Ez Hd).
        -- rewrite E in Hd. assert (H := real_lower _ _ _ _ _ n HL Hd Hlo). now apply lower_irrefl in H.
      * rewrite G3 in Hd by (now left). exact (no_wait_no_down _ _ _ _ _ HL Ez Hd).
  - assert (HnI : In n (w_list w)) by (eapply wait_listed; eassumption).
    destruct (link_linv isnew lvl pos _ _ _ c n true HL HI HK Hlo (or_introl HnI))
        as [w1 [E [H1 [H2 [H3 [H4 H5]]]]]].
    rewrite E in HE.
    assert (HR : real w1 c = real w c).
    { unfold WbProofs.real. destruct (isnew c); [|reflexivity]. apply H3. congruence. }
    assert (HK1 : isnew c = true -> above w1 c <> None) by (intros Hc; rewrite H3 by congruence; auto).
    assert (HI1 : In c (w_list w1)) by (now rewrite H2).
    destruct (link_freed_linv isnew lvl pos l intro roots w1 c H1 HI1 HK1) as [w2 [E2 [G1 [G2 [G3 G4]]]]].
    { intros; apply Hl; now right. }
    destruct Hf as [<-|Hf].
    + rewrite E2 in HE. injection HE as ->.
      assert (Hn2 : above w' n = real w c).
      { rewrite G3 by (now left). rewrite H4. now destruct (above w n). }
      auto.
    + destruct (IH intro roots w1 c w' H1 HI1 HK1 (fun x Hx => Hl x (or_intror Hx)) HN' HE f Hf) as [K1 K2].
      rewrite HR in K1, K2. rewrite H3 in K1 by (intros ->; contradiction). auto.
Qed.

(** A strict transaction, taken apart. *)
Definition tx_ok (gone intro : list nat) (p c : nat) (news freeds : list nat) : Prop :=
  known isnew intro p = true /\ known isnew intro c = true /\ (lvl c < lvl p)%nat /\ NoDup news /\
  (forall n, In n news -> isnew n = true /\ ~ In n intro /\ lower n c) /\
  (forall f, In f freeds -> lower f c /\ known isnew intro f = true) /\ NoDup freeds /\
  (forall b, b = p \/ b = c \/ In b news \/ In b freeds -> ~ In b gone /\ ismeta b = false) /\
  (news <> [] \/ freeds <> []).

Lemma strict_tx : forall gone intro p c news freeds,
  strict_op isnew lvl pos ismeta gone intro (OTransact p c news freeds) = true ->
  tx_ok gone intro p c news freeds.
Proof.
  intros gone intro p c news freeds H. unfold strict_op in H.
  apply andb_true_iff in H. destruct H as [H HS].
  apply andb_true_iff in H. destruct H as [HO HG].
  apply andb_true_iff in HS. destruct HS as [HS HE].
  apply andb_true_iff in HS. destruct HS as [HS HKf].
  apply andb_true_iff in HS. destruct HS as [HM HNf].
  cbn [legal_op] in HO. apply andb_true_iff in HO. destruct HO as [HO Hfr].
  apply andb_true_iff in HO. destruct HO as [HO Hnw].
  apply andb_true_iff in HO. destruct HO as [HO Hnd].
  apply andb_true_iff in HO. destruct HO as [HO Hlv].
  apply andb_true_iff in HO. destruct HO as [Hkp Hkc].
  apply Nat.ltb_lt in Hlv. apply nodupb_ok in Hnd. apply nodupb_ok in HNf.
  rewrite forallb_forall in Hfr, Hnw, HKf, HG, HM. unfold tx_ok. ands; auto.
  - intros n Hn. specialize (Hnw n Hn).
    apply andb_true_iff in Hnw. destruct Hnw as [Hnw Hp].
    apply andb_true_iff in Hnw. destruct Hnw as [Hnw Hl].
    apply andb_true_iff in Hnw. destruct Hnw as [Hnw Hi].
    apply negb_true_iff in Hi. apply (proj1 (mem_false n intro)) in Hi.
    apply Nat.eqb_eq in Hl. apply Z.ltb_lt in Hp. ands; auto. right. auto.
  - intros f Hf. specialize (Hfr f Hf). apply andb_true_iff in Hfr. destruct Hfr as [Hl Hp].
    apply Nat.eqb_eq in Hl. apply Z.ltb_lt in Hp. split; [right; auto|auto].
  - intros b Hb. assert (HI : In b (p :: c :: news ++ freeds)).
    { cbn. rewrite in_app_iff. intuition. }
    specialize (HG b HI). specialize (HM b HI). apply negb_true_iff in HG, HM.
    split; [now apply mem_false|assumption].
  - destruct news; [|left; discriminate]. destruct freeds; [discriminate|right; discriminate].
Qed.

(** What a transaction does to the links of the nodes it frees. *)
Lemma exec_freed : forall gone intro roots w p c news freeds w', LInv intro roots w ->
  (forall n, isnew n = true -> ~ In n intro -> above w n = None) ->
  tx_ok gone intro p c news freeds -> wexec w (OTransact p c news freeds) = Some w' ->
  forall f, In f freeds ->
    (above w' f = above w f \/ above w' f = if isnew c then above w' c else Some c) /\
    ((exists d, above w' d = Some f) -> above w' f = if isnew c then above w' c else Some c).
Proof.
  intros gone intro roots w p c news freeds w' HL HN
    (Hkp & Hkc & Hlv & Hnd & Hnw' & Hfr & HNf & _ & _) HE.
  cbn [wexec] in HE.
  destruct (write_all_linv isnew lvl pos news _ _ _ HL) as [A1 [A2 A3]].
  set (w1 := fold_left write_node news w) in *.
  destruct (write_linv isnew lvl pos _ _ _ c A1) as [B1 [B2 B3]].
  destruct (write_linv isnew lvl pos _ _ _ p B1) as [C1 [C2 C3]].
  set (w2 := write_node (write_node w1 c) p) in *.
  destruct (free_all_linv isnew lvl pos freeds _ _ _ C1) as [D1 [D2 D3]].
  set (w3 := fold_left free_buf freeds w2) in *.
  assert (HA : forall x, above w3 x = above w x) by (intros; now rewrite D3, C3, B3, A3).
  assert (HLs : forall x, In x (w_list w3) <-> In x (w_list w) \/ In x (news ++ [c; p])).
  { intros x. rewrite D2, C2, B2, A2, in_app_iff. cbn. intuition. }
  assert (HcI : In c (w_list w3)) by (apply HLs; right; apply in_app_iff; right; cbn; auto).
  assert (HpI : In p (w_list w3)) by (apply HLs; right; apply in_app_iff; right; cbn; auto).
  unfold transact_bufs in HE.
  destruct (link_linv isnew lvl pos intro roots w3 p c false D1 HpI) as [w4 [E4 [F1 [F2 [F3 [F4 F5]]]]]].
  { intros Hn. rewrite HA. eapply known_above; eassumption. }
  { now left. }
  { now left. }
  rewrite E4 in HE.
  assert (Hnc : forall n, In n news -> n <> c).
  { intros n Hn ->. destruct (Hnw' c Hn) as [K1 [K2 K3]]. now apply lower_irrefl in K3. }
  destruct (link_all_linv isnew lvl pos news intro roots w4 c F1) as [w5 [E5 [G1 [G2 [G3 G4]]]]]; auto.
  { now rewrite F2. }
  { intros n Hn. destruct (Hnw' n Hn) as [K1 [K2 K3]]. ands; auto.
    - rewrite F2. apply HLs. right. apply in_app_iff. now left.
    - rewrite F3 by auto. rewrite HA. auto. }
  rewrite E5 in HE.
  assert (Hc5 : above w5 c = above w4 c) by (apply G3; intros Hc; now apply (Hnc c)).
  assert (HI5 : In c (w_list w5)) by (now rewrite G2, F2).
  assert (HK5 : isnew c = true -> above w5 c <> None) by (intros _; now rewrite Hc5).
  assert (HF5 : forall n, In n freeds -> lower n c) by (intros; now apply Hfr).
  destruct (link_freed_linv isnew lvl pos freeds intro roots w5 c G1 HI5 HK5 HF5) as [w6 [E6 [I1 [I2 [I3 I4]]]]].
  rewrite E6 in HE. injection HE as ->.
  assert (Hcf : ~ In c freeds) by (intros Hc; apply HF5 in Hc; now apply lower_irrefl in Hc).
  assert (Hc6 : above w' c = above w5 c) by (apply I3; now left).
  assert (HR : (if isnew c then above w' c else Some c) = real w5 c).
  { unfold WbProofs.real. now rewrite Hc6. }
  intros f Hf. rewrite HR.
  destruct (link_freed_down freeds intro roots w5 c w' G1 HI5 HK5 HF5 HNf E6 f Hf) as [K1 K2].
  split; [|assumption]. destruct K1 as [K1|K1]; [left|now right]. rewrite K1.
  assert (Hfn : ~ In f news).
  { intros H. destruct (Hnw' f H) as [X1 [X2 X3]]. apply Hfr in Hf. destruct Hf as [_ Hf].
    unfold known in Hf. rewrite X1 in Hf. cbn in Hf. now apply (proj1 (mem_iff f intro)) in Hf. }
  rewrite G3 by assumption. rewrite F3 by (intros ->; auto). apply HA.
Qed.
End Run.
