From Coq Require Import ZArith List Bool Lia Arith.
From Verif Require Import Base CPGuardModel CPGuardSpec.
Import ListNotations.
Open Scope Z_scope.

Lemma has_in c l : has c l = true <-> In c l.
Proof.
  unfold has. rewrite existsb_exists. split; [intros (x & H & E); apply Z.eqb_eq in E; now subst|]. intro H. exists c. now rewrite Z.eqb_refl.
Qed.
Lemma gfind_in g l x : gfind g l = Some x -> In (g, x) l.
Proof. induction l as [|[k y] l IH]; cbn; [discriminate|]. destruct (Nat.eqb_spec k g); [intro H; injection H as <-; subst; auto|auto]. Qed.
Lemma gfind_none g l : gfind g l = None <-> ~ In g (map fst l).
Proof. induction l as [|[k y] l IH]; cbn; [tauto|]. destruct (Nat.eqb_spec k g); [split; [discriminate|subst; tauto]|rewrite IH; tauto]. Qed.
Lemma in_gfind g l : In g (map fst l) -> exists x, gfind g l = Some x.
Proof. intro H. destruct (gfind g l) eqn:E; [eauto|]. apply gfind_none in E. tauto. Qed.
Lemma gfind_gset g h x l : gfind g (gset h x l) = if Nat.eqb h g then (match gfind g l with Some _ => Some x | None => None end) else gfind g l.
Proof.
  unfold gset. induction l as [|[k y] l IH]; cbn; [now destruct (Nat.eqb h g)|]. destruct (Nat.eqb_spec k h); cbn; destruct (Nat.eqb_spec k g); subst; rewrite ?IH;
  rewrite ?Nat.eqb_refl; try reflexivity; destruct (Nat.eqb_spec h g); subst; congruence || reflexivity.
Qed.
Lemma gfind_gdel g h l : gfind g (gdel h l) = if Nat.eqb h g then None else gfind g l.
Proof.
  unfold gdel. induction l as [|[k y] l IH]; cbn; [now destruct (Nat.eqb h g)|]. destruct (Nat.eqb_spec k h); cbn [negb]; [subst; rewrite IH; destruct (Nat.eqb_spec h g); reflexivity|].
  cbn [gfind]. rewrite IH. destruct (Nat.eqb_spec k g), (Nat.eqb_spec h g); subst; congruence || reflexivity.
Qed.
Lemma gset_names g x l : map fst (gset g x l) = map fst l.
Proof. unfold gset. induction l as [|[k y] l IH]; cbn; [reflexivity|]. rewrite IH. now destruct (Nat.eqb k g). Qed.

Notation cnt := (count_occ Z.eq_dec).
Definition lv (l : list (nat * guard)) (c : Z) : nat := length (filter (fun e => g_cp (snd e) =? c) l).
Lemma lv_gset g x y l c : gfind g l = Some y -> g_cp x = g_cp y -> NoDup (map fst l) -> lv (gset g x l) c = lv l c.
Proof.
  unfold lv. induction l as [|[k z] l IH]; [discriminate|]. cbn [gfind gset map fst]. intros HF HE HN. inversion HN; subst. change (map _ l) with (gset g x l). destruct (Nat.eqb_spec k g).
  - injection HF as ->. subst k. cbn. rewrite HE. assert (HG : gset g x l = l).
    { clear -H1. unfold gset. induction l as [|[k z] l IH]; cbn; [reflexivity|]. cbn in H1. destruct (Nat.eqb_spec k g); [tauto|]. rewrite IH; tauto. }
    rewrite HG. destruct (_ =? _); reflexivity.
  - cbn. destruct (g_cp z =? c); cbn; rewrite IH; auto.
Qed.
Lemma gdel_none g l : ~ In g (map fst l) -> gdel g l = l.
Proof. unfold gdel. induction l as [|[k z] l IH]; cbn; [reflexivity|]. intro H. destruct (Nat.eqb_spec k g); [tauto|]. cbn. rewrite IH; tauto. Qed.
Lemma lv_gdel g y l c : gfind g l = Some y -> NoDup (map fst l) -> lv l c = (lv (gdel g l) c + (if (g_cp y =? c)%Z then 1 else 0))%nat.
Proof.
  unfold lv. induction l as [|[k z] l IH]; [discriminate|]. cbn [gfind gdel filter fst map]. intros HF HN. inversion HN; subst. change (filter (fun e => negb (Nat.eqb (fst e) g)) l) with (gdel g l). destruct (Nat.eqb_spec k g).
  - injection HF as ->. subst k. cbn. rewrite gdel_none by assumption. destruct (_ =? _); cbn; lia.
  - cbn. specialize (IH HF H2). destruct (g_cp z =? c); cbn; lia.
Qed.
Lemma gdel_nodup g l : NoDup (map fst l) -> NoDup (map fst (gdel g l)).
Proof.
  unfold gdel. induction l as [|[k z] l IH]; cbn; [auto|]. intro H. inversion H; subst. destruct (negb _); cbn; [|auto]. constructor; [|auto].
  intro HI. apply H2. rewrite in_map_iff in *. destruct HI as (e & H1 & HI). apply filter_In in HI. exists e. tauto.
Qed.
Lemma cnt_drop1 c l x : In c l -> cnt l x = (cnt (drop1 c l) x + (if (c =? x)%Z then 1 else 0))%nat.
Proof.
  induction l as [|y l IH]; cbn; [tauto|]. intro HI. destruct (Z.eqb_spec y c).
  - subst. destruct (Z.eq_dec c x), (Z.eqb_spec c x); subst; lia.
  - destruct HI as [HI|HI]; [congruence|]. cbn. specialize (IH HI). destruct (Z.eq_dec y x); lia.
Qed.
Lemma lv_in g x l : gfind g l = Some x -> (0 < lv l (g_cp x))%nat.
Proof.
  intro H. apply gfind_in in H. unfold lv. assert (HI : In (g, x) (filter (fun e => g_cp (snd e) =? g_cp x) l)) by (apply filter_In; cbn; rewrite Z.eqb_refl; auto).
  destruct (filter _ l); [destruct HI|cbn; lia].
Qed.
Lemma without_in g x l : In x (without g l) <-> In x l /\ x <> g.
Proof. unfold without. rewrite filter_In. destruct (Nat.eqb_spec x g); cbn; intuition congruence. Qed.
Lemma without_nodup g l : NoDup l -> NoDup (without g l).
Proof. apply NoDup_filter. Qed.

Definition cp_is (s : gst) (g : nat) (p : bool) (c : Z) : Prop := gfind g (guards s) = Some (Guard c p).
Record inv (u : uses) (s : gst) : Prop := {
  i_names : NoDup (map fst (guards s));
  i_cnt : forall c, cnt (refs s) c = lv (guards s) c;
  i_alive : forall c, In c (refs s) -> In c (alive s);
  i_cur : In (cur s) (alive s);
  i_stack : forall t, Forall2 (fun g c => cp_is s g true c) (u_open u t) (stacks s t);
  i_idle : forall g, In g (u_idle u) -> exists c, cp_is s g false c;
  i_where : forall g, In g (map fst (guards s)) -> In g (u_idle u) \/ exists t, In g (u_open u t);
  i_used : forall g, In g (map fst (guards s)) -> In g (u_names u);
  i_one : forall t, NoDup (u_open u t);
  i_apart : forall t t' g, In g (u_open u t) -> In g (u_open u t') -> t = t' }.
Lemma inv_init c : inv unused (ginit c).
Proof. constructor; cbn; try tauto; intros; try constructor. Qed.
Lemma open_found u s t g : inv u s -> In g (u_open u t) -> exists c, cp_is s g true c /\ In c (stacks s t).
Proof.
  intros HV HI. pose proof (i_stack _ _ HV t) as HF. induction HF as [|x c l l' H HF IH]; [destruct HI|].
  destruct HI as [->|HI]; [exists c; split; [exact H|now left]|]. destruct (IH HI) as (c' & ? & ?). exists c'. split; [assumption|now right].
Qed.
Lemma live_alive u s g x : inv u s -> gfind g (guards s) = Some x -> In (g_cp x) (alive s) /\ In (g_cp x) (refs s).
Proof.
  intros HV HF. assert (HI : In (g_cp x) (refs s)). { apply (count_occ_In Z.eq_dec). rewrite (i_cnt _ _ HV). apply (lv_in g x). exact HF. }
  split; [apply (i_alive _ _ HV)|]; exact HI.
Qed.
Lemma Forall2_same {A B} (P Q : A -> B -> Prop) l l' : Forall2 P l l' -> (forall a b, In a l -> P a b -> Q a b) -> Forall2 Q l l'.
Proof. induction 1; intro H1; constructor; [apply H1; [now left|assumption]|]. apply IHForall2. intros. apply H1; [now right|assumption]. Qed.

Lemma new_inv n i o t g s : inv (Uses n i o) s -> ~ In g n ->
  exists s', gnew t g s = GOk s' /\ inv (Uses (g :: n) i (on t (g :: o t) o)) s'.
Proof.
  intros HV HN. unfold gnew. set (c := match stacks s t with [] => cur s | c :: _ => c end).
  assert (HG : ~ In g (map fst (guards s))) by (intro H; apply (i_used _ _ HV) in H; auto).
  assert (HO : forall u, ~ In g (o u)). { intros u H. destruct (open_found _ _ u g HV H) as (c0 & H1 & _). apply gfind_in in H1. apply HG, in_map_iff. eexists. split; [|exact H1]. reflexivity. }
  assert (HC : In c (alive s)).
  { unfold c. pose proof (i_stack _ _ HV t) as HF. destruct HF as [|x c0 l l' H HF]; [apply (i_cur _ _ HV)|]. destruct (live_alive _ _ _ _ HV H) as [H1 _]. exact H1. }
  rewrite (proj2 (has_in c _) HC). eexists. split; [reflexivity|]. destruct HV as [V1 V2 V3 V4 V5 V6 V7 V8 V9 V10]. cbn in *.
  constructor; cbn.
  - constructor; assumption.
  - intro x. unfold lv in *. cbn. destruct (Z.eq_dec c x), (Z.eqb_spec c x); try congruence; cbn; rewrite V2; reflexivity.
  - intros x [<-|H]; auto.
  - exact V4.
  - intro u. unfold on, set_stack. assert (HK : forall u, Forall2 (fun h x => cp_is (Gst (cur s) (alive s) (c :: refs s) ((g, Guard c true) :: guards s) (fun u => if Nat.eqb u t then c :: stacks s t else stacks s u)) h true x) (o u) (stacks s u)).
    { intro u'. eapply Forall2_same; [apply V5|]. intros a b HA HB. unfold cp_is in *. cbn. destruct (Nat.eqb_spec g a); [subst; elim (HO _ HA)|exact HB]. }
    destruct (Nat.eqb_spec u t) as [->|]; [|apply HK]. constructor; [|apply HK]. unfold cp_is. cbn. now rewrite Nat.eqb_refl.
  - intros h HI. destruct (V6 h HI) as [x HX]. exists x. unfold cp_is in *. cbn. destruct (Nat.eqb_spec g h); [|exact HX]. subst. apply gfind_in in HX. elim HG. apply in_map_iff. eexists. split; [|exact HX]. reflexivity.
  - intros h [<-|HI]; [right; exists t; unfold on; rewrite Nat.eqb_refl; now left|]. destruct (V7 h HI) as [H|[u H]]; [auto|]. right. exists u. unfold on. destruct (Nat.eqb_spec u t); [subst; now right|exact H].
  - intros h [<-|HI]; auto.
  - intro u. unfold on. destruct (Nat.eqb u t); [|apply V9]. constructor; auto.
  - intros u u' h. unfold on. destruct (Nat.eqb_spec u t), (Nat.eqb_spec u' t); subst; auto; cbn; intros HA HB.
    + destruct HA as [<-|HA]; [elim (HO _ HB)|eauto].
    + destruct HB as [<-|HB]; [elim (HO _ HA)|eauto].
    + eauto.
Qed.
Lemma found_where u s g : inv u s -> In g (u_idle u) \/ (exists t, In g (u_open u t)) -> exists x, gfind g (guards s) = Some x.
Proof.
  intros HV [H|[t H]]; [destruct (i_idle _ _ HV g H); eauto|]. destruct (open_found _ _ t g HV H) as (c & ? & _). eauto.
Qed.
Lemma copy_inv n i o g h s : inv (Uses n i o) s -> ~ In h n -> (In g i \/ exists t, In g (o t)) ->
  exists s', gcopy g h s = GOk s' /\ inv (Uses (h :: n) (h :: i) o) s'.
Proof.
  intros HV HN HW. unfold gcopy. destruct (found_where _ _ g HV HW) as [x HX]. rewrite HX. destruct (live_alive _ _ _ _ HV HX) as [HA HR].
  rewrite (proj2 (has_in _ _) HA). eexists. split; [reflexivity|].
  assert (HG : ~ In h (map fst (guards s))) by (intro H; apply (i_used _ _ HV) in H; auto).
  assert (HO : forall u, ~ In h (o u)). { intros u H. destruct (open_found _ _ u h HV H) as (c0 & H1 & _). apply gfind_in in H1. apply HG, in_map_iff. eexists. split; [|exact H1]. reflexivity. }
  destruct HV as [V1 V2 V3 V4 V5 V6 V7 V8 V9 V10]. cbn in *. constructor; cbn; auto.
  - constructor; assumption.
  - intro c. unfold lv in *. cbn. destruct (Z.eq_dec (g_cp x) c), (Z.eqb_spec (g_cp x) c); try congruence; cbn; rewrite V2; reflexivity.
  - intros c [<-|H]; auto.
  - intro u. eapply Forall2_same; [apply V5|]. intros a b Ha Hb. unfold cp_is in *. cbn. destruct (Nat.eqb_spec h a); [subst; elim (HO _ Ha)|exact Hb].
  - intros a [<-|HI]; [exists (g_cp x); unfold cp_is; cbn; now rewrite Nat.eqb_refl|]. destruct (V6 a HI) as [c HC]. exists c. unfold cp_is in *. cbn.
    destruct (Nat.eqb_spec h a); [|exact HC]. subst. apply gfind_in in HC. elim HG. apply in_map_iff. eexists. split; [|exact HC]. reflexivity.
  - intros a [<-|HI]; [auto|]. destruct (V7 a HI); auto.
  - intros a [<-|HI]; auto.
Qed.
Lemma use_idle_inv n i o t g s : inv (Uses n i o) s -> In g i ->
  exists s', gget t g s = GOk s' /\ inv (Uses n (without g i) (on t (g :: o t) o)) s'.
Proof.
  intros HV HI. unfold gget. destruct (i_idle _ _ HV g HI) as [c HC]. unfold cp_is in HC. rewrite HC. cbn [g_pushed g_cp]. eexists. split; [reflexivity|].
  assert (HO : forall u, ~ In g (o u)). { intros u H. destruct (open_found _ _ u g HV H) as (c0 & H1 & _). unfold cp_is in H1. congruence. }
  destruct HV as [V1 V2 V3 V4 V5 V6 V7 V8 V9 V10]. cbn in *. constructor; cbn; auto.
  - rewrite gset_names. exact V1.
  - intro x. rewrite V2. symmetry. eapply lv_gset; eauto.
  - intro u. unfold on, set_stack. assert (HK : forall u, Forall2 (fun h x => cp_is (Gst (cur s) (alive s) (refs s) (gset g (Guard c true) (guards s)) (fun u => if Nat.eqb u t then c :: stacks s t else stacks s u)) h true x) (o u) (stacks s u)).
    { intro u'. eapply Forall2_same; [apply V5|]. intros a b Ha Hb. unfold cp_is in *. cbn. rewrite gfind_gset. destruct (Nat.eqb_spec g a); [subst; elim (HO _ Ha)|exact Hb]. }
    destruct (Nat.eqb_spec u t) as [->|]; [|apply HK]. constructor; [|apply HK]. unfold cp_is. cbn. now rewrite gfind_gset, Nat.eqb_refl, HC.
  - intros a Ha. apply without_in in Ha. destruct (V6 a (proj1 Ha)) as [x HX]. exists x. unfold cp_is in *. cbn. rewrite gfind_gset. destruct (Nat.eqb_spec g a); [subst; tauto|exact HX].
  - intros a Ha. rewrite gset_names in Ha. destruct (Nat.eq_dec a g) as [->|Hne]; [right; exists t; unfold on; rewrite Nat.eqb_refl; now left|].
    destruct (V7 a Ha) as [H|[u H]]; [left; apply without_in; auto|]. right. exists u. unfold on. destruct (Nat.eqb_spec u t); [subst; now right|exact H].
  - intros a Ha. rewrite gset_names in Ha. auto.
  - intro u. unfold on. destruct (Nat.eqb u t); [|apply V9]. constructor; auto.
  - intros u u' h. unfold on. destruct (Nat.eqb_spec u t), (Nat.eqb_spec u' t); subst; auto; cbn; intros HA HB.
    + destruct HA as [<-|HA]; [elim (HO _ HB)|eauto].
    + destruct HB as [<-|HB]; [elim (HO _ HA)|eauto].
    + eauto.
Qed.
Lemma use_same n i o t u g s : inv (Uses n i o) s -> In g (o u) -> gget t g s = GOk s.
Proof. intros HV HI. destruct (open_found _ _ u g HV HI) as (c & HC & _). unfold gget. unfold cp_is in HC. rewrite HC. reflexivity. Qed.
Lemma gdel_in g l x : In x (map fst (gdel g l)) -> In x (map fst l) /\ x <> g.
Proof.
  unfold gdel. rewrite !in_map_iff. intros (e & <- & HI). apply filter_In in HI. destruct HI as [HI H]. split; [eauto|]. destruct (Nat.eqb_spec (fst e) g); [discriminate|assumption].
Qed.
Lemma close_inv n i o t g r s : inv (Uses n i o) s -> o t = g :: r ->
  exists s', gdestroy t g s = GOk s' /\ inv (Uses n i (on t r o)) s'.
Proof.
  intros HV HO. assert (HI : In g (o t)) by (rewrite HO; now left). pose proof (i_stack _ _ HV t) as HF. cbn in HF. rewrite HO in HF.
  inversion HF as [|g0 c l l' HC HR E1 E2]; subst. unfold gdestroy. unfold cp_is in HC. rewrite HC, <- E2. cbn [g_pushed g_cp]. 
  destruct (live_alive _ _ _ _ HV HC) as [HA HB]. cbn in HA, HB. rewrite (proj2 (has_in _ _) HA), (proj2 (has_in _ _) HB). cbn [andb]. eexists. split; [reflexivity|].
  assert (HNI : ~ In g i). { intro H. destruct (i_idle _ _ HV g H) as [c0 H0]. unfold cp_is in H0. congruence. }
  destruct HV as [V1 V2 V3 V4 V5 V6 V7 V8 V9 V10]. cbn in *. pose proof (V9 t) as HN. rewrite HO in HN. inversion HN; subst.
  constructor; cbn; auto.
  - apply gdel_nodup. exact V1.
  - intro x. pose proof (cnt_drop1 c (refs s) x HB). pose proof (lv_gdel g _ _ x HC V1) as HL. cbn [g_cp] in HL. rewrite V2 in H. unfold lv in *. lia.
  - intros x HX. apply V3. apply (count_occ_In Z.eq_dec). apply (count_occ_In Z.eq_dec) in HX. rewrite (cnt_drop1 c (refs s) x HB). lia.
  - intro u. unfold on, set_stack. destruct (Nat.eqb_spec u t) as [->|Hne].
    + eapply Forall2_same; [exact HR|]. intros a b Ha Hb. unfold cp_is in *. cbn. rewrite gfind_gdel. destruct (Nat.eqb_spec g a); [subst; tauto|exact Hb].
    + eapply Forall2_same; [apply V5|]. intros a b Ha Hb. unfold cp_is in *. cbn. rewrite gfind_gdel. destruct (Nat.eqb_spec g a); [|exact Hb]. subst a. elim Hne. eapply V10; eauto.
  - intros a Ha. destruct (V6 a Ha) as [x HX]. exists x. unfold cp_is in *. cbn. rewrite gfind_gdel. destruct (Nat.eqb_spec g a); [subst; tauto|exact HX].
  - intros a Ha. apply gdel_in in Ha. destruct Ha as [Ha Hg]. destruct (V7 a Ha) as [H|[u H]]; [auto|]. right. exists u. unfold on. destruct (Nat.eqb_spec u t); [|exact H]. subst. rewrite HO in H. destruct H; congruence.
  - intros a Ha. apply gdel_in in Ha. apply V8. tauto.
  - intro u. unfold on. destruct (Nat.eqb u t); [assumption|apply V9].
  - intros u u' a. unfold on. destruct (Nat.eqb_spec u t), (Nat.eqb_spec u' t); subst; auto; intros Ha Hb; [eapply (V10 t u' a); [rewrite HO; now right|exact Hb]|eapply (V10 u t a); [exact Ha|rewrite HO; now right]|eapply V10; eauto].
Qed.
Lemma drop_inv n i o t g s : inv (Uses n i o) s -> In g i ->
  exists s', gdestroy t g s = GOk s' /\ inv (Uses n (without g i) o) s'.
Proof.
  intros HV HI. destruct (i_idle _ _ HV g HI) as [c HC]. unfold gdestroy. unfold cp_is in HC. rewrite HC. cbn [g_pushed g_cp]. 
  destruct (live_alive _ _ _ _ HV HC) as [HA HB]. cbn in HA, HB. rewrite (proj2 (has_in _ _) HA), (proj2 (has_in _ _) HB). cbn [andb]. eexists. split; [reflexivity|].
  assert (HO : forall u, ~ In g (o u)). { intros u H. destruct (open_found _ _ u g HV H) as (c0 & H1 & _). unfold cp_is in H1. congruence. }
  destruct HV as [V1 V2 V3 V4 V5 V6 V7 V8 V9 V10]. cbn in *. constructor; cbn; auto.
  - apply gdel_nodup. exact V1.
  - intro x. pose proof (cnt_drop1 c (refs s) x HB). pose proof (lv_gdel g _ _ x HC V1) as HL. cbn [g_cp] in HL. rewrite V2 in H. unfold lv in *. lia.
  - intros x HX. apply V3. apply (count_occ_In Z.eq_dec). apply (count_occ_In Z.eq_dec) in HX. rewrite (cnt_drop1 c (refs s) x HB). lia.
  - intro u. eapply Forall2_same; [apply V5|]. intros a b Ha Hb. unfold cp_is in *. cbn. rewrite gfind_gdel. destruct (Nat.eqb_spec g a); [subst; elim (HO _ Ha)|exact Hb].
  - intros a Ha. apply without_in in Ha. destruct (V6 a (proj1 Ha)) as [x HX]. exists x. unfold cp_is in *. cbn. rewrite gfind_gdel. destruct (Nat.eqb_spec g a); [subst; tauto|exact HX].
  - intros a Ha. apply gdel_in in Ha. destruct Ha as [Ha Hg]. destruct (V7 a Ha) as [H|H]; [left; apply without_in; auto|auto].
  - intros a Ha. apply gdel_in in Ha. apply V8. tauto.
Qed.
Lemma switch_inv u s : inv u s -> inv u (Gst (cur s + 1) (cur s + 1 :: alive s) (refs s) (guards s) (stacks s)).
Proof. intros [V1 V2 V3 V4 V5 V6 V7 V8 V9 V10]. constructor; cbn; auto. Qed.
Lemma retire_inv u s c : inv u s -> (c <? cur s) && negb (has c (refs s)) = true ->
  inv u (Gst (cur s) (filter (fun x => negb (x =? c)) (alive s)) (refs s) (guards s) (stacks s)).
Proof.
  intros [V1 V2 V3 V4 V5 V6 V7 V8 V9 V10] H. apply andb_prop in H. destruct H as [H1 H2]. constructor; cbn; auto.
  - intros x HX. apply filter_In. split; [auto|]. destruct (Z.eqb_spec x c); [|reflexivity]. subst. apply has_in in HX. rewrite HX in H2. discriminate.
  - apply filter_In. split; [auto|]. lia.
Qed.
Lemma fair_ok u a u' s : inv u s -> fair u a u' ->
  match gstep s a with GCrash => False | GOk s' => inv u' s' | GStop => exists c, a = GRetire c end.
Proof.
  intros HV HF. destruct HF; cbn [gstep].
  - destruct (new_inv n i o t g s HV H) as (s' & -> & H'). exact H'.
  - destruct (copy_inv n i o g h s HV H H0) as (s' & -> & H'). exact H'.
  - destruct (use_idle_inv n i o t g s HV H) as (s' & -> & H'). exact H'.
  - rewrite (use_same n i o t u g s HV H). exact HV.
  - destruct (close_inv n i o t g r s HV H) as (s' & -> & H'). exact H'.
  - destruct (drop_inv n i o t g s HV H) as (s' & -> & H'). exact H'.
  - apply switch_inv. exact HV.
  - destruct (_ && _) eqn:E; [apply retire_inv; assumption|eauto].
Qed.
Lemma together_inv c u s : together c u s -> inv u s.
Proof.
  induction 1 as [|u s a u' s' HT IH HF HS]; [apply inv_init|]. pose proof (fair_ok u a u' s IH HF) as HG. rewrite HS in HG. exact HG.
Qed.
