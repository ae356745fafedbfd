From Coq Require Import ZArith List Bool Lia Arith.
From Verif Require Import Base CPModel CPSpec.
Import ListNotations.
Open Scope Z_scope.

Notation cnt := (count_occ Z.eq_dec).
Definition one (x c : Z) : nat := if Z.eq_dec x c then 1 else 0.
Lemma take_cnt c l : forall r, take c l = Some r -> forall x, cnt l x = (cnt r x + one c x)%nat.
Proof.
  induction l as [|y l IH]; cbn; [discriminate|]. intros r H x. unfold one. destruct (Z.eqb_spec y c).
  - injection H as <-. subst. destruct (Z.eq_dec c x); lia.
  - destruct (take c l) as [r'|]; [|discriminate]. injection H as <-. specialize (IH r' eq_refl x). unfold one in IH. cbn.
    destruct (Z.eq_dec y x), (Z.eq_dec c x); subst; lia.
Qed.
Lemma take_in c l r : take c l = Some r -> In c l.
Proof.
  intro H. apply (count_occ_In Z.eq_dec). rewrite (take_cnt c l r H). unfold one. destruct (Z.eq_dec c c); [lia|congruence].
Qed.
Lemma take_sub c l r x : take c l = Some r -> In x r -> In x l.
Proof. intros H HI. apply (count_occ_In Z.eq_dec) in HI. apply (count_occ_In Z.eq_dec). rewrite (take_cnt c l r H). lia. Qed.
Lemma in_take c l : In c l -> exists r, take c l = Some r.
Proof.
  induction l as [|y l IH]; cbn; [tauto|]. destruct (Z.eqb_spec y c); [eauto|]. intros [->|H]; [congruence|].
  destruct (IH H) as [r ->]. eauto.
Qed.
Lemma existsb_in c l : existsb (Z.eqb c) l = true <-> In c l.
Proof.
  rewrite existsb_exists. split; [intros (x & H & E); apply Z.eqb_eq in E; now subst|]. intro H. exists c. now rewrite Z.eqb_refl.
Qed.
Definition within (a b : Z) (l : list Z) : Prop := forall x, In x l -> x = a \/ x = b.
Lemma within_cnt a b l : within a b l <-> forall x, x <> a -> x <> b -> cnt l x = 0%nat.
Proof.
  unfold within. split.
  - intros H x H1 H2. apply count_occ_not_In. intro HI. apply H in HI. tauto.
  - intros H x HI. destruct (Z.eq_dec x a); [auto|]. destruct (Z.eq_dec x b); [auto|]. apply (count_occ_In Z.eq_dec) in HI. rewrite H in HI; [lia|assumption|assumption].
Qed.

(** The states of the pipeline.  Everything about lists of threads is said with counts. *)
Definition other0 (a b : Z) (l : list Z) : Prop := forall x, x <> a -> x <> b -> cnt l x = 0%nat.
Inductive shape : mgr -> Prop :=
| ShIdle c n sh pe pw rc inn ex bb lg :
    other0 c c rc -> other0 c c inn -> other0 c c ex -> cnt inn c = n -> (pe = true -> bb <> O) ->
    shape (Mgr [(c, Cp IoReady n [])] c false sh pe pw (c - 1) None rc inn ex [] [] bb lg)
| ShEntered c n w sh pe pw rc inn ex bb lg :
    other0 c c rc -> other0 c c inn -> other0 c c ex -> n = S (cnt inn c) ->
    shape (Mgr [(c, Cp Trigger n [])] c true sh pe pw (c - 1) (Some (TEntered c w)) rc inn ex [] [] bb lg)
| ShPrepared c n ws sh pe pw rc inn ex bb lg :
    other0 c c rc -> other0 c c inn -> ex = [] -> n = S (cnt inn c) ->
    shape (Mgr [(c, Cp Prepare n ws)] c true sh pe pw (c - 1) (Some (TPrepared c)) rc inn ex [] [] bb lg)
| ShSwapped c c' n m ws sh pe pw rc inn ex bb lg :
    c' = c + 1 -> other0 c c' rc -> other0 c c' inn -> other0 c' c' ex -> n = S (cnt inn c) -> m = cnt inn c' ->
    shape (Mgr [(c, Cp Prepare n ws); (c', Cp IoReady m [])] c' true sh pe pw (c - 1) (Some (TSwapped c)) rc inn ex [] [] bb lg)
| ShWaiting c c' n m ws sh pe pw rc inn ex bb lg :
    c' = c + 1 -> other0 c' c' rc -> other0 c c' inn -> other0 c c' ex -> n = cnt inn c -> m = cnt inn c' ->
    cnt ex c = (if Nat.eqb n 0 then 1 else 0)%nat ->
    shape (Mgr [(c, Cp Prepare n ws); (c', Cp IoReady m [])] c' true sh pe pw (c - 1) None rc inn ex [] [] bb lg)
| ShFlushing c c' m ws sh pe pw rc inn ex bb lg :
    c' = c + 1 -> other0 c' c' rc -> other0 c' c' inn -> other0 c' c' ex -> m = cnt inn c' ->
    shape (Mgr [(c, Cp Flushing 0 ws); (c', Cp IoReady m [])] c' true sh pe pw (c - 1) None rc inn ex [c] [] bb lg)
| ShDone c c' m ws sh pe pw rc inn ex bb lg :
    c' = c + 1 -> other0 c' c' rc -> other0 c' c' inn -> other0 c' c' ex -> m = cnt inn c' ->
    shape (Mgr [(c', Cp IoReady m [])] c' true sh pe pw c None rc inn ex [] [(c, ws)] bb lg).

Ltac eqz := repeat (rewrite Z.eqb_refl || match goal with |- context [?a =? ?b] => replace (a =? b) with false by lia end).
Ltac flat := cbv beta iota zeta delta [with_cps with_cur with_inflush with_shut with_pending with_last with_trig with_rcu with_in with_exits with_flushes with_done with_b2b say
  m_cps m_cur m_inflush m_shut m_pending m_pwait m_last m_trig m_rcu m_in m_exits m_flushes m_done m_b2b m_log] in *; cbn [m_cps m_cur m_inflush m_shut m_pending m_pwait m_last m_trig m_rcu m_in m_exits m_flushes m_done m_b2b m_log
  get put del map filter fst snd c_st c_cnt c_wait negb] in *.

Lemma boot_shape last : shape (boot last).
Proof. unfold boot. replace last with (last + 1 - 1) at 3 by lia. constructor; try (intros ? ? ?; reflexivity). reflexivity. discriminate. Qed.

Lemma cnt_cons a l x : cnt (a :: l) x = (cnt l x + one a x)%nat.
Proof. unfold one. cbn. destruct (Z.eq_dec a x); lia. Qed.
Lemma other_in a b l x : other0 a b l -> In x l -> x = a \/ x = b.
Proof. intros H. apply within_cnt. exact H. Qed.
Lemma one_same x : one x x = 1%nat.
Proof. unfold one. destruct (Z.eq_dec x x); congruence. Qed.
Lemma one_diff a x : a <> x -> one a x = 0%nat.
Proof. unfold one. destruct (Z.eq_dec a x); congruence. Qed.

(** Counting: instances of the hypotheses at [x]. *)
Ltac at_x x :=
  repeat match goal with
  | H : other0 _ _ _ |- _ => specialize (H x)
  | H : forall y, cnt _ y = _ |- _ => pose proof (H x); revert H
  end; intros.
Ltac ones := unfold one in *; repeat match goal with |- context [Z.eq_dec ?a ?b] => destruct (Z.eq_dec a b) | H : context [Z.eq_dec ?a ?b] |- _ => destruct (Z.eq_dec a b) end.
Ltac taken :=
  repeat match goal with
  | H : take ?c ?l = Some ?r |- _ =>
      let HI := fresh "HI" in let HC := fresh "HC" in
      pose proof (take_in c l r H) as HI; pose proof (take_cnt c l r H) as HC; clear H
  end.
Ltac oth := let x := fresh "x" in intros x ? ?; at_x x; rewrite ?cnt_cons in *; ones; lia.

Lemma enter1_ok s : shape s -> exists s', step s AEnter1 = Ok s' /\ shape s'.
Proof. intro H. eexists. split; [reflexivity|]. destruct H; flat; subst; constructor; try reflexivity; try oth; assumption. Qed.

Definition held (s : mgr) (c : Z) : Prop := match m_trig s with Some (TEntered d _) | Some (TPrepared d) | Some (TSwapped d) => c = d | None => False end.
Definition canref (c : Z) (s : mgr) : Prop := In c (m_in s) \/ c = m_cur s \/ held s c.
Lemma in_canref c s : shape s -> inside c s -> canref c s.
Proof.
  unfold inside, canref, held. intros H [HI|HI]; [auto|right]. destruct H; flat;
  match goal with HO : other0 _ _ ?l, HX : In _ ?l |- _ => destruct (other_in _ _ _ _ HO HX) end; subst; auto.
Qed.
Lemma ref_ok s c : shape s -> canref c s -> exists s', cp_ref c s = Ok s' /\ shape s'.
Proof.
  intros H HC. unfold cp_ref.
  assert (HE : forall a b, other0 a b (m_in s) -> m_cur s = b -> (forall d, held s d -> d = a) -> c = a \/ c = b).
  { intros a b H1 H2 H3. destruct HC as [HC|[HC|HC]]; [eapply other_in in HC; eauto|subst; auto|left; auto]. }
  unfold held in HE. unfold canref, held in HC.
  destruct H as [d n sh pe pw rc inn ex bb lg H1 H2 H3 H4 HBB|d n w sh pe pw rc inn ex bb lg H1 H2 H3 H4|d n ws sh pe pw rc inn ex bb lg H1 H2 H3 H4
    |d c' n m ws sh pe pw rc inn ex bb lg H0 H1 H2 H3 H4 H5|d c' n m ws sh pe pw rc inn ex bb lg H0 H1 H2 H3 H4 H5 H6
    |d c' m ws sh pe pw rc inn ex bb lg H0 H1 H2 H3 H4|d c' m ws sh pe pw rc inn ex bb lg H0 H1 H2 H3 H4]; flat.
  1-3: assert (c = d) as -> by (destruct (HE d d H2 eq_refl); auto; tauto);
    eqz; flat; eexists; (split; [reflexivity|]); flat; eqz; constructor; try assumption; rewrite ?cnt_cons, ?one_same; subst; try lia; oth.
  - destruct (HE d c' H2 eq_refl) as [->| ->]; [auto| |]; eqz; flat; eexists; (split; [reflexivity|]); flat; eqz; constructor; try assumption;
      rewrite ?cnt_cons, ?one_same, ?one_diff by lia; subst; try lia; oth.
  - destruct (HE d c' H2 eq_refl) as [->| ->]; [tauto| |]; eqz; flat; eexists; (split; [reflexivity|]); flat; eqz; constructor; try assumption;
      rewrite ?cnt_cons, ?one_same, ?one_diff by lia; subst; try lia; try oth.
    destruct HC as [HC|[HC|[]]]; [|lia]. apply (count_occ_In Z.eq_dec) in HC. rewrite H6.
    assert (Hn : Nat.eqb (cnt inn d) 0 = false) by (apply Nat.eqb_neq; intro HZ; rewrite HZ in HC; inversion HC). rewrite Hn. reflexivity.
  - destruct (HE c' c' H2 eq_refl) as [->| ->]; [tauto| |]; eqz; flat; eexists; (split; [reflexivity|]); flat; eqz; constructor; try assumption;
      rewrite ?cnt_cons, ?one_same, ?one_diff by lia; subst; try lia; try oth.
  - destruct (HE c' c' H2 eq_refl) as [->| ->]; [tauto| |]; eqz; flat; eexists; (split; [reflexivity|]); flat; eqz; constructor; try assumption;
      rewrite ?cnt_cons, ?one_same, ?one_diff by lia; subst; try lia; try oth.
Qed.

Definition good (r : res) : Prop := match r with Crash => False | Stop => True | Ok s' => shape s' end.
Ltac shapes H :=
  destruct H as [d n sh pe pw rc inn ex bb lg H1 H2 H3 H4 HBB|d n w sh pe pw rc inn ex bb lg H1 H2 H3 H4|d n ws sh pe pw rc inn ex bb lg H1 H2 H3 H4
    |d c' n m ws sh pe pw rc inn ex bb lg H0 H1 H2 H3 H4 H5|d c' n m ws sh pe pw rc inn ex bb lg H0 H1 H2 H3 H4 H5 H6
    |d c' m ws sh pe pw rc inn ex bb lg H0 H1 H2 H3 H4|d c' m ws sh pe pw rc inn ex bb lg H0 H1 H2 H3 H4].
Ltac mk := constructor; try assumption; rewrite ?cnt_cons, ?one_same, ?one_diff by lia; subst; try reflexivity; try lia; try oth.

Lemma rcu_less s r : shape s -> (forall x, (cnt r x <= cnt (m_rcu s) x)%nat) -> shape (with_rcu s r).
Proof.
  intros H HL. shapes H; flat; constructor; try assumption; intros x ? ?; specialize (HL x); at_x x; lia.
Qed.
Lemma enter2_good s c : shape s -> good (enter2 c s).
Proof.
  intro H. unfold enter2. destruct (take c (m_rcu s)) as [r|] eqn:E; [|exact I].
  destruct (ref_ok (with_rcu s r) c) as (s' & HS & HG).
  - apply rcu_less; [assumption|]. intro x. rewrite (take_cnt _ _ _ E). lia.
  - apply take_in in E. pose proof (in_canref c s H (or_intror E)) as HC. exact HC.
  - rewrite HS. exact HG.
Qed.
Lemma refa_good s c : shape s -> good (step s (ARef c)).
Proof.
  intro H. cbn. destruct (existsb _ _) eqn:E; [|exact I]. apply existsb_in in E.
  destruct (ref_ok s c H) as (s' & HS & HG); [left; exact E|]. rewrite HS. exact HG.
Qed.
Lemma exit1_good s c : shape s -> good (exit1 c s).
Proof.
  intro H. unfold exit1. destruct (take c (m_in s)) as [r|] eqn:E; [|exact I]. taken.
  assert (HP : (0 < cnt (m_in s) c)%nat) by (apply (count_occ_In Z.eq_dec) in HI; lia). pose proof (HC c) as HCC. rewrite one_same in HCC.
  shapes H; flat.
  1-3: assert (c = d) as -> by (destruct (other_in _ _ _ _ H2 HI); auto); eqz; subst; flat; rewrite ?HCC, ?Nat.add_1_r; cbn [good].
  - destruct (Nat.eqb_spec (cnt r d) 0); flat; mk.
  - destruct (Nat.eqb_spec (S (cnt r d)) 0); [lia|]. flat. mk.
  - destruct (Nat.eqb_spec (S (cnt r d)) 0); [lia|]. flat. mk.
  - destruct (other_in _ _ _ _ H2 HI) as [->| ->]; eqz; subst; flat; rewrite ?HCC, ?Nat.add_1_r; cbn [good].
    + destruct (Nat.eqb_spec (S (cnt r d)) 0); [lia|]. flat. eqz. mk. specialize (HC (d + 1)). rewrite one_diff in HC by lia. lia.
    + destruct (Nat.eqb_spec (cnt r (d + 1)) 0); flat; eqz; mk; specialize (HC d); rewrite one_diff in HC by lia; lia.
  - destruct (other_in _ _ _ _ H2 HI) as [->| ->]; eqz; subst; flat; rewrite ?HCC, ?Nat.add_1_r; cbn [good].
    + pose proof (HC (d + 1)) as HD. rewrite one_diff in HD by lia. rewrite HCC, Nat.add_1_r in H6. cbn [Nat.eqb] in H6.
      destruct (Nat.eqb (cnt r d) 0) eqn:EN; flat; eqz; mk; rewrite ?EN; lia.
    + pose proof (HC d) as HD. rewrite one_diff in HD by lia. rewrite Nat.add_0_r in HD. rewrite HD in *.
      destruct (Nat.eqb_spec (cnt r (d + 1)) 0); flat; eqz; mk.
  - assert (c = c') as -> by (destruct (other_in _ _ _ _ H2 HI); auto); eqz; subst; flat; rewrite ?HCC, ?Nat.add_1_r; cbn [good].
    destruct (Nat.eqb_spec (cnt r (d + 1)) 0); flat; eqz; mk.
  - assert (c = c') as -> by (destruct (other_in _ _ _ _ H2 HI); auto); eqz; subst; flat; rewrite ?HCC, ?Nat.add_1_r; cbn [good].
    destruct (Nat.eqb_spec (cnt r (d + 1)) 0); flat; eqz; mk.
Qed.

Lemma exit2_good s c : shape s -> good (exit2 c s).
Proof.
  intro H. unfold exit2. destruct (take c (m_exits s)) as [r|] eqn:E; [|exact I]. taken.
  shapes H; flat.
  1-2: assert (c = d) as -> by (destruct (other_in _ _ _ _ H3 HI); auto); eqz; flat; cbn [good]; mk.
  - subst ex. destruct HI.
  - assert (c = c') as -> by (destruct (other_in _ _ _ _ H3 HI); auto); eqz; flat; cbn [good]; mk.
  - destruct (other_in _ _ _ _ H3 HI) as [->| ->]; eqz; flat; cbn [good].
    + pose proof (HC d) as HD. rewrite one_same in HD. destruct (Nat.eqb_spec n 0) as [e|e]; [|lia]. eqz. rewrite e. subst n. constructor; try assumption.
      all: intros x Hx Hx2; destruct (Z.eq_dec x d) as [->|]; [lia|]; at_x x; ones; lia.
    + pose proof (HC d) as HD. rewrite one_diff in HD by lia. mk.
  - assert (c = c') as -> by (destruct (other_in _ _ _ _ H3 HI); auto); eqz; flat; cbn [good]; mk.
  - assert (c = c') as -> by (destruct (other_in _ _ _ _ H3 HI); auto); eqz; flat; cbn [good]; mk.
Qed.
Lemma trigger_good s w0 f sd : shape s -> good (trigger w0 f sd s).
Proof.
  intro H. unfold trigger. shapes H; flat; try exact I; eqz; flat.
  - cbn [good]. mk.
  - destruct (f && _); cbn [good]; mk.
  - destruct (f && _); cbn [good]; mk.
  - destruct (f && _); cbn [good]; mk.
Qed.
Lemma tprepare_good s : shape s -> calm s -> good (tprepare s).
Proof.
  intros H HC. unfold tprepare. shapes H; flat; try exact I; eqz; flat; cbn [good]. mk.
  specialize (HC d w eq_refl). flat. destruct ex as [|x ex]; [reflexivity|]. exfalso. apply HC. destruct (other_in _ _ _ x H3); [now left|subst; now left|subst; now left].
Qed.
Lemma tswap_good s : shape s -> good (tswap s).
Proof.
  intros H. unfold tswap. shapes H; flat; try exact I; cbn [good app]. mk; [intros x _ _; reflexivity|]. specialize (H2 (d + 1)). rewrite H2 by lia. reflexivity.
Qed.
Lemma tsync_good s : shape s -> good (tsync s).
Proof.
  intros H. unfold tsync. shapes H; flat; try exact I. destruct (existsb (Z.eqb d) rc) eqn:E; [exact I|]. cbn [good].
  assert (HN : cnt rc d = 0%nat). { apply count_occ_not_In. intro HI. apply existsb_in in HI. congruence. }
  mk.
  - intros x Hx _. destruct (Z.eq_dec x d); [subst; exact HN|]. apply H1; assumption.
  - cbn [Nat.eqb]. rewrite H3 by lia. reflexivity.
Qed.
Lemma flushed_good s c : shape s -> good (flushed c s).
Proof.
  intros H. unfold flushed. shapes H; flat; cbn [take]; try exact I. destruct (Z.eqb_spec d c) as [->|]; [|exact I].
  eqz. flat. eqz. flat. cbn [good]. replace (c - 1 + 1) with c by lia. mk.
Qed.
Lemma done_good s c : shape s -> good (done c s).
Proof.
  intros H. unfold done. shapes H; flat; cbn [find]; try exact I. flat. destruct (Z.eqb_spec d c) as [->|]; [|exact I].
  flat. eqz. flat. cbn [good]. replace c with (c' - 1) by lia. mk. intros ->. lia.
Qed.
Lemma b2b_good s : shape s -> good (b2b s).
Proof.
  intros H. unfold b2b. destruct (m_b2b s) as [|k]; [exact I|]. unfold trigger. shapes H; flat; try exact I; eqz; flat; cbn [good]; mk.
Qed.
Lemma step_good s a : shape s -> allowed s a -> good (step s a).
Proof.
  intros H HA. destruct a; cbn [step].
  - destruct (enter1_ok s H) as (s' & H1 & H2). cbn in H1. rewrite H1. exact H2.
  - now apply enter2_good.
  - now apply refa_good.
  - now apply exit1_good.
  - now apply exit2_good.
  - now apply trigger_good.
  - now apply tprepare_good.
  - now apply tswap_good.
  - now apply tsync_good.
  - now apply flushed_good.
  - now apply done_good.
  - now apply b2b_good.
  - cbn [good]. shapes H; flat; constructor; assumption.
Qed.
Lemma reached_shape last s : reached last s -> shape s.
Proof.
  induction 1 as [|s a s' H IH HA HE]; [apply boot_shape|]. pose proof (step_good s a IH HA) as HG. rewrite HE in HG. exact HG.
Qed.

(** ** Who waits for what *)
Definition at_ (c : Z) (ws : list nat) : list (nat * Z) := map (fun w => (w, c)) ws.
Definition proms (l : list (Z * cp)) : list (nat * Z) := concat (map (fun e => at_ (fst e) (c_wait (snd e))) l).
Definition waitlist (s : mgr) : list (nat * Z) :=
  at_ (m_cur s) (if m_pending s then m_pwait s else []) ++
  match m_trig s with Some (TEntered c ws) => at_ c ws | _ => [] end ++
  proms (m_cps s) ++ concat (map (fun d => at_ (fst d) (snd d)) (m_done s)).

Lemma get_none c l : get c l = None <-> ~ In c (map fst l).
Proof.
  induction l as [|[k p] l IH]; cbn; [tauto|]. destruct (Z.eqb_spec k c); [split; [discriminate|tauto]|]. rewrite IH. tauto.
Qed.
Lemma put_other c q l : ~ In c (map fst l) -> put c q l = l.
Proof.
  induction l as [|[k p] l IH]; cbn; [reflexivity|]. intro H. destruct (Z.eqb_spec k c); [tauto|]. f_equal. apply IH. tauto.
Qed.
Lemma proms_put c p q l : NoDup (map fst l) -> get c l = Some p -> c_wait q = c_wait p -> proms (put c q l) = proms l.
Proof.
  unfold proms. induction l as [|[k r] l IH]; cbn; [discriminate|]. intros HN HG HW. inversion HN as [|? ? HN1 HN2]; subst.
  destruct (Z.eqb_spec k c).
  - injection HG as ->. subst. cbn. rewrite HW. f_equal. fold (put c q l). rewrite put_other; [reflexivity|assumption].
  - cbn. f_equal. apply IH; assumption.
Qed.
Lemma shape_nodup s : shape s -> NoDup (map fst (m_cps s)).
Proof. intro H. shapes H; flat; repeat constructor; cbn; try tauto; intros [?|[]]; lia. Qed.

(** A step that leaves waiters, the flushes and the log alone. *)
Definition quiet (s s' : mgr) : Prop :=
  waitlist s' = waitlist s /\ m_log s' = m_log s /\ m_last s' = m_last s /\ m_flushes s' = m_flushes s /\ m_cur s' = m_cur s /\ m_done s' = m_done s.
Lemma ref_quiet s c s' : NoDup (map fst (m_cps s)) -> cp_ref c s = Ok s' -> quiet s s'.
Proof.
  intros HN H. unfold cp_ref in H. destruct (get c (m_cps s)) as [p|] eqn:E; [|discriminate].
  destruct (c_st p) eqn:ES; try discriminate; injection H as <-; unfold quiet, waitlist; flat; rewrite (proms_put c p) by auto; ands; reflexivity.
Qed.
Lemma quiet_steps s a s' : shape s -> step s a = Ok s' ->
  match a with AEnter1 | AEnter2 _ | ARef _ | AExit1 _ | ATSync | AShut => quiet s s' | _ => True end.
Proof.
  intros HS H. pose proof (shape_nodup s HS) as HN. destruct a; cbn [step] in H; try exact I.
  - injection H as <-. unfold quiet, waitlist. flat. ands; reflexivity.
  - unfold enter2 in H. destruct (take c (m_rcu s)) as [r|]; [|discriminate]. apply ref_quiet in H; [|exact HN]. exact H.
  - destruct (existsb _ _); [|discriminate]. eapply ref_quiet; eauto.
  - unfold exit1 in H. destruct (take c (m_in s)) as [r|]; [|discriminate]. destruct (get c (m_cps s)) as [p|] eqn:E; [|discriminate].
    destruct (c_st p) eqn:ES, (c_cnt p) as [|n]; try discriminate; injection H as <-; destruct (Nat.eqb n 0);
      unfold quiet, waitlist; flat; rewrite (proms_put c p) by auto; ands; reflexivity.
  - unfold tsync in H. destruct (m_trig s) as [[| |]|] eqn:ET; try discriminate. destruct (existsb _ _); [discriminate|]. injection H as <-.
    unfold quiet, waitlist. rewrite ET. flat. ands; reflexivity.
  - injection H as <-. unfold quiet, waitlist. flat. ands; reflexivity.
Qed.

(** What a step does to the waiters and the log. *)
Record moves (s : mgr) (a : act) (s' : mgr) (new : list event) : Prop := {
  mv_log : m_log s' = m_log s ++ new;
  mv_cur : m_cur s <= m_cur s';
  mv_kept : forall w t, In (w, t) (waitlist s) -> (exists t', t <= t' /\ In (w, t') (waitlist s')) \/ In (ETold w t) new;
  mv_back : forall w t, In (w, t) (waitlist s') -> (exists t0, t0 <= t /\ In (w, t0) (waitlist s)) \/
              (exists f sh, a = ATrig w f sh /\ t = m_cur s /\ In (ECall w (m_cur s)) new);
  mv_call : forall w c, In (ECall w c) new -> c = m_cur s /\ (exists f sh, a = ATrig w f sh) /\ (In (w, c) (waitlist s') \/ In (ERefused w) new);
  mv_told : forall w t, In (ETold w t) new -> In (w, t) (waitlist s) /\ In t (map fst (m_done s));
  mv_done : forall t, In t (map fst (m_done s')) -> In t (map fst (m_done s)) \/ In (ESaved t) new;
  mv_core : (core new = [] /\ m_flushes s' = m_flushes s /\ m_last s' = m_last s \/
             (exists c, core new = [EStart c] /\ m_flushes s = [] /\ m_flushes s' = [c] /\ c = m_last s + 1 /\ m_last s' = m_last s) \/
             (exists c, core new = [ESaved c] /\ m_flushes s = [c] /\ m_flushes s' = [] /\ c = m_last s + 1 /\ m_last s' = c)) }.

Lemma quiet_moves s a s' : quiet s s' -> moves s a s' [].
Proof.
  intros (H1 & H2 & H3 & H4 & H5 & H6). constructor; cbn [In].
  - now rewrite app_nil_r.
  - lia.
  - intros w t H. left. exists t. rewrite H1. split; [lia|exact H].
  - intros w t H. left. exists t. rewrite <- H1. split; [lia|exact H].
  - tauto.
  - tauto.
  - intros t H. rewrite <- H6. auto.
  - left. cbn. auto.
Qed.
Lemma at_in c ws w t : In (w, t) (at_ c ws) <-> In w ws /\ t = c.
Proof.
  unfold at_. rewrite in_map_iff. split; [intros (x & H & HI); injection H as -> ->; auto|]. intros [H ->]. eauto.
Qed.
Lemma core_none l : (forall e, In e l -> match e with EStart _ | ESaved _ => False | _ => True end) -> core l = [].
Proof.
  unfold core. induction l as [|e l IH]; intro H; cbn; [reflexivity|]. pose proof (H e (or_introl eq_refl)). rewrite IH by (intros; apply H; now right).
  destruct e; try contradiction; reflexivity.
Qed.
Definition call_act (a : act) (ws : list nat) : Prop := match a with ATrig w _ _ => ws = [w] | AB2B => ws = [] | _ => False end.
Lemma trigger_moves s a ws f sh s' : NoDup (map fst (m_cps s)) -> call_act a ws -> trigger ws f sh s = Ok s' -> exists new, moves s a s' new.
Proof.
  intros HN HA H. destruct s as [cps cur infl shu pend pw last trg rcu inn ex fl dn bb lg].
  unfold trigger in H. flat. destruct trg eqn:ET; [discriminate|].
  set (calls := map (fun w => ECall w (cur)) ws) in *.
  assert (HCA : forall w c, In (ECall w c) calls -> c = cur /\ (exists f sh, a = ATrig w f sh) /\ In w ws).
  { intros w c HI. unfold calls in HI. apply in_map_iff in HI. destruct HI as (x & HE & HI). injection HE as -> ->. split; [reflexivity|]. split; [|exact HI].
    destruct a; cbn in HA; try contradiction; subst ws; [|destruct HI]. destruct HI as [->|[]]. eauto. }
  assert (HCI : forall w, In w ws -> In (ECall w (cur)) calls) by (intros w HI; unfold calls; apply in_map_iff; eauto).
  assert (HCK : forall e, In e calls -> exists w, e = ECall w (cur)) by (intros e HI; unfold calls in HI; apply in_map_iff in HI; destruct HI as (x & <- & _); eauto).
  assert (HACT : forall w, In w ws -> exists f sh, a = ATrig w f sh) by (intros w HI; apply (HCA w (cur)); auto).
  destruct (infl) eqn:EI.
  - destruct (f && _).
    + injection H as <-. exists calls. constructor.
      * reflexivity.
      * flat. lia.
      * intros w t HI. left. exists t. split; [lia|]. unfold waitlist in *. flat. rewrite !in_app_iff, ?at_in in *.
        destruct HI as [[HI ->]|HI]; [|tauto]. left. split; [|reflexivity]. apply in_or_app. left. destruct (pend); [exact HI|destruct HI].
      * intros w t HI. unfold waitlist in *. flat. rewrite !in_app_iff, ?at_in in HI.
        destruct HI as [[HI ->]|HI]; [|left; exists t; split; [lia|]; rewrite !in_app_iff; tauto].
        apply in_app_or in HI. destruct HI as [HI|HI].
        -- left. exists (cur). split; [lia|]. rewrite !in_app_iff, at_in. left. split; [|reflexivity]. destruct (pend); [exact HI|destruct HI].
        -- right. destruct (HACT w HI) as (f' & sh' & HE). exists f', sh'. auto.
      * intros w c HI. apply HCA in HI. destruct HI as (-> & HE & HI). split; [reflexivity|]. split; [exact HE|]. left.
        unfold waitlist. flat. rewrite !in_app_iff, at_in. left. split; [|reflexivity]. apply in_or_app. now right.
      * intros w t HI. apply HCK in HI. destruct HI as [? ?]. discriminate.
      * intros t HI. left. exact HI.
      * left. flat. rewrite core_none; [auto|]. intros e HI. apply HCK in HI. destruct HI as [? ->]. exact I.
    + injection H as <-. exists (calls ++ map ERefused ws).
      assert (HRK : forall e, In e (calls ++ map ERefused ws) -> (exists w, e = ECall w (cur) /\ In e calls) \/ exists w, e = ERefused w).
      { intros e HI. apply in_app_or in HI. destruct HI as [HI|HI]; [left; destruct (HCK e HI) as [w ->]; eauto|right]. apply in_map_iff in HI. destruct HI as (x & <- & _). eauto. }
      constructor.
      * flat. now rewrite app_assoc.
      * flat. lia.
      * intros w t HI. left. exists t. split; [lia|exact HI].
      * intros w t HI. left. exists t. split; [lia|exact HI].
      * intros w c HI. apply HRK in HI. destruct HI as [(x & HE & HI)|(x & HE)]; [|discriminate]. injection HE as -> ->. apply HCA in HI. destruct HI as (_ & HE & HI).
        split; [reflexivity|]. split; [exact HE|]. right. apply in_or_app. right. now apply in_map.
      * intros w t HI. apply HRK in HI. destruct HI as [(x & HE & _)|(x & HE)]; discriminate.
      * intros t HI. left. exact HI.
      * left. flat. rewrite core_none; [auto|]. intros e HI. apply HRK in HI. destruct HI as [(x & -> & _)|(x & ->)]; exact I.
  - destruct (get (cur) (cps)) as [p|] eqn:EG; [|discriminate].
    assert (HPR : forall q, c_wait q = c_wait p -> proms (put (cur) q (cps)) = proms (cps)) by (intros q Hq; apply (proms_put _ p); auto).
    destruct (c_st p); try discriminate; injection H as <-; exists calls; (constructor;
      [reflexivity
      |flat; lia
      |intros w t HI; left; exists t; split; [lia|]; unfold waitlist in *; flat; rewrite HPR by reflexivity; rewrite !in_app_iff in *; destruct HI as [HI|[[]|HI]]; tauto
      |intros w t HI; unfold waitlist in *; flat; rewrite HPR in HI by reflexivity; rewrite !in_app_iff, ?at_in in HI;
       destruct HI as [HI|[[HI ->]|HI]];
         [left; exists t; split; [lia|]; rewrite !in_app_iff, at_in; tauto
         |right; destruct (HACT w HI) as (f' & sh' & HE); exists f', sh'; auto
         |left; exists t; split; [lia|]; rewrite !in_app_iff; tauto]
      |intros w c HI; apply HCA in HI; destruct HI as (-> & HE & HI); split; [reflexivity|]; split; [exact HE|]; left;
       unfold waitlist; flat; rewrite !in_app_iff, !at_in; right; left; auto
      |intros w t HI; apply HCK in HI; destruct HI as [? ?]; discriminate
      |intros t HI; left; exact HI
      |left; flat; rewrite core_none; [auto|]; intros e HI; apply HCK in HI; destruct HI as [? ->]; exact I]).
Qed.

Lemma moves_same s a s' new : waitlist s' = waitlist s -> m_log s' = m_log s ++ new -> m_cur s' = m_cur s -> m_done s' = m_done s ->
  (forall w c, ~ In (ECall w c) new) -> (forall w t, ~ In (ETold w t) new) ->
  (core new = [] /\ m_flushes s' = m_flushes s /\ m_last s' = m_last s \/
   (exists c, core new = [EStart c] /\ m_flushes s = [] /\ m_flushes s' = [c] /\ c = m_last s + 1 /\ m_last s' = m_last s) \/
   (exists c, core new = [ESaved c] /\ m_flushes s = [c] /\ m_flushes s' = [] /\ c = m_last s + 1 /\ m_last s' = c)) ->
  moves s a s' new.
Proof.
  intros H1 H2 H3 H4 H5 H6 H7. constructor.
  - exact H2.
  - lia.
  - intros w t H. left. exists t. rewrite H1. split; [lia|exact H].
  - intros w t H. left. exists t. rewrite <- H1. split; [lia|exact H].
  - intros w c H. destruct (H5 w c H).
  - intros w c H. destruct (H6 w c H).
  - intros t H. left. now rewrite <- H4.
  - exact H7.
Qed.
Lemma exit2_moves s a c s' : shape s -> exit2 c s = Ok s' -> exists new, moves s a s' new.
Proof.
  intros HS H. pose proof (exit2_good s c HS) as HG. rewrite H in HG. cbn [good] in HG. pose proof (shape_nodup s HS) as HN. unfold exit2 in H.
  destruct (take c (m_exits s)) as [r|]; [|discriminate]. destruct (get c (m_cps s)) as [p|] eqn:EG; [|discriminate]. injection H as <-.
  assert (HQ : moves s a (with_exits s r) []).
  { apply moves_same; try reflexivity; cbn; try tauto. now rewrite app_nil_r. }
  destruct (c_st p) eqn:ES; try (exists []; exact HQ). exists [EStart c].
  assert (HL : m_flushes s = [] /\ c = m_last s + 1).
  { inversion HG as [|? ? ? ? ? ? ? ? ? ? ? ? ? ? ? E|? ? ? ? ? ? ? ? ? ? ? ? ? ? ? E|? ? ? ? ? ? ? ? ? ? ? ? ? ? ? ? ? ? ? E|? ? ? ? ? ? ? ? ? ? ? ? ? ? ? ? ? ? ? ? E| |];
    try discriminate; flat; destruct s; flat; subst; split; auto; lia. }
  destruct HL as [HL1 HL2].
  apply moves_same; cbn [In]; try reflexivity; try (intros; intros [?|[]]; discriminate).
  - unfold waitlist. destruct s; flat. rewrite (proms_put c p) by auto. reflexivity.
  - right. left. exists c. destruct s; flat. ands; auto. now rewrite HL1.
Qed.
Lemma tprepare_moves s a s' : shape s -> tprepare s = Ok s' -> exists new, moves s a s' new.
Proof.
  intros HS H. exists []. unfold tprepare in H. shapes HS; flat; try discriminate. rewrite Z.eqb_refl in H. flat. injection H as <-.
  constructor; flat; cbn [In]; try tauto; try lia; try (now rewrite app_nil_r); try (left; cbn; auto; fail).
  - intros w0 t HI. left. exists t. split; [lia|]. unfold waitlist, proms in *. flat. cbn [concat] in *. rewrite !app_nil_r in *. cbn [app at_ map].
    unfold at_ in *. rewrite map_app. destruct pe; cbn [map app] in *; rewrite ?in_app_iff in *; cbn [map In] in HI; tauto.
  - intros w0 t HI. left. exists t. split; [lia|]. unfold waitlist, proms in *. flat. cbn [concat] in *. rewrite !app_nil_r in *. cbn [app at_ map] in *.
    unfold at_ in *. rewrite map_app in HI. destruct pe; cbn [map app] in *; rewrite ?in_app_iff in *; tauto.
Qed.
Lemma tswap_moves s a s' : shape s -> tswap s = Ok s' -> exists new, moves s a s' new.
Proof.
  intros HS H. exists []. unfold tswap in H. shapes HS; flat; try discriminate. injection H as <-.
  constructor; flat; cbn [In]; try tauto; try lia; try (now rewrite app_nil_r); try (left; cbn; auto; fail).
  - intros w0 t HI. left. unfold waitlist, proms in *. flat. cbn [concat app at_ map] in *. rewrite !app_nil_r in *.
    rewrite in_app_iff, !at_in in HI. destruct HI as [[HI ->]|[HI ->]].
    + exists (d + 1). split; [lia|]. rewrite in_app_iff, !at_in. tauto.
    + exists d. split; [lia|]. rewrite in_app_iff, !at_in. tauto.
  - intros w0 t HI. left. unfold waitlist, proms in *. flat. cbn [concat app at_ map] in *. rewrite !app_nil_r in *.
    rewrite in_app_iff, !at_in in HI. destruct HI as [[HI ->]|[HI ->]]; exists d; (split; [lia|]); rewrite in_app_iff, !at_in; tauto.
Qed.
Lemma flushed_moves s a c s' : shape s -> flushed c s = Ok s' -> exists new, moves s a s' new.
Proof.
  intros HS H. unfold flushed in H. shapes HS; flat; cbn [take] in H; try discriminate. destruct (Z.eqb_spec d c) as [->|]; [|discriminate].
  flat. rewrite ?Z.eqb_refl in H. flat. replace (c' =? c) with false in H by lia. flat. injection H as <-. replace (c - 1 + 1) with c by lia. exists [ESaved c].
  constructor; flat; cbn [In]; try lia; try reflexivity; try (intros; repeat match goal with H : _ \/ False |- _ => destruct H as [H|[]] end; discriminate).
  - intros w t HI. left. exists t. split; [lia|]. unfold waitlist, proms in *. flat. cbn [concat app at_ map] in *. rewrite !app_nil_r in *. exact HI.
  - intros w t HI. left. exists t. split; [lia|]. unfold waitlist, proms in *. flat. cbn [concat app at_ map] in *. rewrite !app_nil_r in *. exact HI.
  - intros t [->|[]]. auto.
  - right. right. exists c. ands; try reflexivity; lia.
Qed.
Lemma done_moves s a c s' : shape s -> done c s = Ok s' -> exists new, moves s a s' new.
Proof.
  intros HS H. unfold done in H. shapes HS; flat; cbn [find] in H; try discriminate. flat. destruct (Z.eqb_spec d c) as [->|]; [|discriminate].
  flat. rewrite ?Z.eqb_refl in H. flat. injection H as <-. exists (map (fun w => ETold w c) ws).
  assert (HK : forall e, In e (map (fun w => ETold w c) ws) -> exists w, e = ETold w c /\ In w ws) by (intros e HI; apply in_map_iff in HI; destruct HI as (x & <- & HI); eauto).
  constructor; flat; cbn [In]; try lia; try reflexivity; try tauto.
  - intros w t HI. unfold waitlist, proms in *. flat. cbn [concat app at_ map] in *. rewrite !app_nil_r in *. rewrite in_app_iff, !at_in in HI.
    destruct HI as [[HI ->]|[HI ->]].
    + left. exists c'. rewrite at_in. split; [lia|auto].
    + right. apply in_map_iff. eauto.
  - intros w t HI. unfold waitlist, proms in *. flat. cbn [concat app at_ map] in *. rewrite !app_nil_r in *. rewrite at_in in HI.
    left. exists t. split; [lia|]. rewrite in_app_iff, at_in. auto.
  - intros w t HI. apply HK in HI. destruct HI as (x & HE & _). discriminate.
  - intros w t HI. apply HK in HI. destruct HI as (x & HE & HI). injection HE as -> ->. split; [|auto].
    unfold waitlist. flat. cbn [concat]. rewrite app_nil_r, !in_app_iff, !at_in. auto.
  - left. rewrite core_none; [auto|]. intros e HI. apply HK in HI. destruct HI as (x & -> & _). exact I.
Qed.
Lemma step_moves s a s' : shape s -> step s a = Ok s' -> exists new, moves s a s' new.
Proof.
  intros HS H. pose proof (quiet_steps s a s' HS H) as HQ. destruct a; try (exists []; apply quiet_moves; exact HQ); cbn [step] in H.
  - eapply exit2_moves; eauto.
  - eapply (trigger_moves s _ [w]); eauto using shape_nodup. reflexivity.
  - eapply tprepare_moves; eauto.
  - eapply tswap_moves; eauto.
  - eapply flushed_moves; eauto.
  - eapply done_moves; eauto.
  - unfold b2b in H. destruct (m_b2b s) as [|k]; [discriminate|]. apply (trigger_moves _ AB2B []) in H; [|exact (shape_nodup s HS)|reflexivity].
    destruct H as [new H]. exists new. destruct H. constructor; assumption.
Qed.

(** ** The log *)
Lemma rounds_snoc k : forall f, rounds f (S k) = rounds f k ++ [EStart (f + Z.of_nat k); ESaved (f + Z.of_nat k)].
Proof.
  induction k as [|k IH]; intro f; [cbn; do 3 f_equal; lia|]. change (rounds f (S (S k))) with (EStart f :: ESaved f :: rounds (f + 1) (S k)).
  rewrite IH. cbn [rounds app]. do 4 f_equal; [|f_equal]; f_equal; lia.
Qed.
Lemma core_app a b : core (a ++ b) = core a ++ core b.
Proof. unfold core. apply filter_app. Qed.

Record logs (last : Z) (s : mgr) : Prop := {
  lg_last : last <= m_last s;
  lg_core : core (m_log s) = rounds (last + 1) (Z.to_nat (m_last s - last)) ++ map EStart (m_flushes s);
  lg_due : forall w t, In (w, t) (waitlist s) -> called w (m_log s) /\ forall c, In (ECall w c) (m_log s) -> c <= t;
  lg_told : forall w t, In (ETold w t) (m_log s) -> called w (m_log s) /\ forall c, In (ECall w c) (m_log s) -> c <= t;
  lg_called : forall w, called w (m_log s) -> (exists t, In (w, t) (waitlist s)) \/ (exists t, In (ETold w t) (m_log s)) \/ In (ERefused w) (m_log s);
  lg_done : forall t, In t (map fst (m_done s)) -> In (ESaved t) (m_log s);
  lg_saved : forall pre post w t, m_log s = pre ++ ETold w t :: post -> In (ESaved t) pre }.

Lemma boot_logs last : logs last (boot last).
Proof.
  constructor; cbn [boot m_log m_last m_flushes m_done map].
  - lia.
  - now rewrite Z.sub_diag.
  - cbn. tauto.
  - cbn. tauto.
  - intros w [c HC]. destruct HC.
  - cbn. tauto.
  - intros pre post w t H. destruct pre; discriminate.
Qed.
Lemma app_split {A} (a b pre post : list A) x : a ++ b = pre ++ x :: post ->
  (exists post', a = pre ++ x :: post') \/ (exists pre', pre = a ++ pre' /\ b = pre' ++ x :: post).
Proof.
  revert pre; induction a as [|y a IH]; intros pre H; cbn in H.
  - right. exists pre. auto.
  - destruct pre as [|z pre]; cbn in H; injection H as -> H.
    + left. exists a. reflexivity.
    + destruct (IH pre H) as [(p & ->)|(p & -> & ->)]; [left; exists p; reflexivity|right; exists p; auto].
Qed.
Lemma step_logs last s a s' : shape s -> logs last s -> allowed s a -> step s a = Ok s' -> logs last s'.
Proof.
  intros HS HL HA HE. destruct (step_moves s a s' HS HE) as [new HM]. destruct HL as [L1 L2 L3 L4 L5 L6 L7], HM as [M1 M2 M3 M4 M5 M6 M7 M8].
  assert (HF : forall w, called w (m_log s) -> forall c, ~ In (ECall w c) new).
  { intros w HC c HI. apply M5 in HI. destruct HI as (_ & (f & sh & ->) & _). apply HA. exact HC. }
  assert (HMono : forall w, called w (m_log s) -> called w (m_log s')) by (intros w [c HC]; exists c; rewrite M1; apply in_or_app; auto).
  assert (HOld : forall w c, called w (m_log s) -> In (ECall w c) (m_log s') -> In (ECall w c) (m_log s)).
  { intros w c HC HI. rewrite M1 in HI. apply in_app_or in HI. destruct HI as [HI|HI]; [exact HI|destruct (HF w HC c HI)]. }
  constructor.
  - destruct M8 as [(_ & _ & ->)|[(c & _ & _ & _ & _ & ->)|(c & _ & _ & _ & -> & ->)]]; lia.
  - rewrite M1, core_app, L2. destruct M8 as [(-> & -> & ->)|[(c & -> & HFL & -> & -> & ->)|(c & -> & HFL & -> & -> & ->)]].
    + now rewrite app_nil_r.
    + rewrite HFL. cbn [map]. now rewrite app_nil_r.
    + rewrite HFL. cbn [map]. rewrite app_nil_r, <- app_assoc. replace (Z.to_nat (m_last s + 1 - last)) with (S (Z.to_nat (m_last s - last))) by lia.
      rewrite rounds_snoc. cbn [app]. replace (last + 1 + Z.of_nat (Z.to_nat (m_last s - last))) with (m_last s + 1) by lia. reflexivity.
  - intros w t HI. apply M4 in HI. destruct HI as [(t0 & HT & HI)|(f & sh & -> & -> & HI)].
    + destruct (L3 w t0 HI) as [H1 H2]. split; [auto|]. intros c HC. apply HOld in HC; [|exact H1]. apply H2 in HC. lia.
    + split; [exists (m_cur s); rewrite M1; apply in_or_app; auto|]. intros c HC. rewrite M1 in HC. apply in_app_or in HC. destruct HC as [HC|HC].
      * destruct HA. exists c. exact HC.
      * apply M5 in HC. destruct HC as [-> _]. lia.
  - intros w t HI. rewrite M1 in HI. apply in_app_or in HI.
    assert (HX : called w (m_log s) /\ forall c, In (ECall w c) (m_log s) -> c <= t).
    { destruct HI as [HI|HI]; [auto|]. apply M6 in HI. apply L3. apply HI. }
    destruct HX as [H1 H2]. split; [auto|]. intros c HC. apply H2, HOld; assumption.
  - intros w [c HC]. rewrite M1 in HC. apply in_app_or in HC. destruct HC as [HC|HC].
    + destruct (L5 w (ex_intro _ c HC)) as [(t & HI)|[(t & HI)|HI]].
      * destruct (M3 w t HI) as [(t' & _ & HI')|HI']; [left; eauto|right; left; exists t; rewrite M1; apply in_or_app; auto].
      * right. left. exists t. rewrite M1. apply in_or_app. auto.
      * right. right. rewrite M1. apply in_or_app. auto.
    + apply M5 in HC. destruct HC as (_ & _ & [HC|HC]); [left; eauto|]. right. right. rewrite M1. apply in_or_app. auto.
  - intros t HI. rewrite M1. apply in_or_app. destruct (M7 t HI) as [H|H]; auto.
  - intros pre post w t H. rewrite M1 in H. apply app_split in H. destruct H as [(p & H)|(p & -> & H)]; [eauto|]. apply in_or_app. left. apply L6.
    eapply M6. rewrite H. apply in_or_app. right. left. reflexivity.
Qed.
Lemma reached_logs last s : reached last s -> logs last s.
Proof.
  induction 1 as [|s a s' H IH HA HE]; [apply boot_logs|]. eapply step_logs; eauto. eapply reached_shape; eauto.
Qed.

(** ** It always can go on *)
Definition phase (s : mgr) : nat :=
  match m_trig s with
  | Some (TEntered _ _) => 6 | Some (TPrepared _) => 5 | Some (TSwapped _) => 4
  | None => if m_inflush s then match m_flushes s, m_done s with _ :: _, _ => 2 | [], _ :: _ => 1 | [], [] => 3 end else 0
  end.
Definition measure (s : mgr) : nat := (10 * phase s + 3 * length (m_rcu s) + 2 * length (m_in s) + length (m_exits s))%nat.
Lemma take_length c l r : take c l = Some r -> length l = S (length r).
Proof.
  revert r; induction l as [|y l IH]; cbn; intro r; [discriminate|]. destruct (y =? c); [intro H; injection H as ->; reflexivity|].
  destruct (take c l); [|discriminate]. intro H. injection H as <-. cbn. f_equal. auto.
Qed.
(** Nobody is left behind for the next round. *)
Definition clear (s : mgr) : Prop := m_pending s = false \/ exists c w, m_trig s = Some (TEntered c w).
Ltac clr := unfold clear; flat; intros [?|(? & ? & ?)]; [left; assumption|discriminate].
Lemma progress s : shape s -> m_inflush s = true -> exists a s', step s a = Ok s' /\ internal a /\ allowed s a /\ (measure s' < measure s)%nat /\ (clear s -> clear s').
Proof.
  intros HS HI. shapes HS; flat; try discriminate.
  - destruct (in_dec Z.eq_dec d ex) as [HX|HX].
    + destruct (in_take d ex HX) as [r HR]. exists (AExit2 d). eexists. split; [|ands].
      * cbn [step]. unfold exit2. flat. rewrite HR. eqz. flat. reflexivity.
      * exact I.
      * exact I.
      * unfold measure, phase. flat. apply take_length in HR. lia.
      * intros _. right. flat. eauto.
    + exists ATPrepare. eexists. split; [|ands].
      * cbn [step]. unfold tprepare. flat. eqz. flat. reflexivity.
      * exact I.
      * intros c w' Hc. flat. injection Hc as -> _. exact HX.
      * unfold measure, phase. flat. lia.
      * intros _. left. reflexivity.
  - exists ATSwap. eexists. split; [cbn [step]; unfold tswap; flat; reflexivity|]. ands; [exact I|exact I| |clr]. unfold measure, phase. flat. lia.
  - destruct (in_dec Z.eq_dec d rc) as [HX|HX].
    + destruct (in_take d rc HX) as [r HR]. exists (AEnter2 d). eexists. split; [|ands].
      * cbn [step]. unfold enter2. flat. rewrite HR. unfold cp_ref. flat. eqz. flat. reflexivity.
      * exact I.
      * exact I.
      * unfold measure, phase. flat. apply take_length in HR. cbn [length]. lia.
      * clr.
    + exists ATSync. eexists. split; [|ands].
      * cbn [step]. unfold tsync. flat. destruct (existsb (Z.eqb d) rc) eqn:EX; [apply existsb_in in EX; tauto|reflexivity].
      * exact I.
      * exact I.
      * unfold measure, phase. flat. cbn [length]. lia.
      * clr.
  - destruct (Nat.eqb_spec n 0) as [HN|HN].
    + destruct (in_take d ex) as [r HR]; [apply (count_occ_In Z.eq_dec); lia|]. exists (AExit2 d). eexists. split; [|ands].
      * cbn [step]. unfold exit2. flat. rewrite HR. eqz. flat. reflexivity.
      * exact I.
      * exact I.
      * unfold measure, phase. flat. apply take_length in HR. lia.
      * clr.
    + destruct (in_take d inn) as [r HR]; [apply (count_occ_In Z.eq_dec); lia|]. destruct n as [|n]; [lia|]. exists (AExit1 d). eexists. split; [|ands].
      * cbn [step]. unfold exit1. flat. rewrite HR. eqz. flat. reflexivity.
      * exact I.
      * exact I.
      * unfold measure, phase. apply take_length in HR. destruct (Nat.eqb n 0); flat; cbn [length]; lia.
      * destruct (Nat.eqb n 0); clr.
  - exists (AFlushed d). eexists. split; [|ands].
    + cbn [step]. unfold flushed. flat. cbn [take]. eqz. flat. reflexivity.
    + exact I.
    + exact I.
    + unfold measure, phase. flat. lia.
    + clr.
  - exists (ADone d). eexists. split; [|ands].
    + cbn [step]. unfold done. flat. cbn [find]. flat. eqz. reflexivity.
    + exact I.
    + exact I.
    + unfold measure, phase. flat. lia.
    + clr.
Qed.
Lemma settles_trans a b c : settles a b -> settles b c -> settles a c.
Proof. induction 1; [auto|]. intro. econstructor; eauto. Qed.
Lemma settles_leads a b : settles a b -> leads a b.
Proof. induction 1; [constructor|]. econstructor; eauto. Qed.
Lemma leads_shape a b : leads a b -> shape a -> shape b.
Proof. induction 1 as [|s x s1 s2 HA HE HL IH]; [auto|]. intro HS. apply IH. pose proof (step_good s x HS HA) as HG. rewrite HE in HG. exact HG. Qed.
Lemma to_idle n : forall s, (measure s < n)%nat -> shape s -> exists s', settles s s' /\ m_inflush s' = false /\ (clear s -> clear s').
Proof.
  induction n as [|n IH]; intros s HM HS; [lia|]. destruct (m_inflush s) eqn:EI; [|exists s; split; [constructor|auto]].
  destruct (progress s HS EI) as (a & s1 & H3 & H1 & H2 & H4 & H5). destruct (IH s1) as (s' & H6 & H7 & H8); [lia| |].
  - pose proof (step_good s a HS H2) as HG. rewrite H3 in HG. exact HG.
  - exists s'. split; [econstructor; eauto|auto].
Qed.
Lemma waiter_kept a b w t : leads a b -> shape a -> In (w, t) (waitlist a) ->
  (exists t', t <= t' /\ In (w, t') (waitlist b)) \/ (exists t', t <= t' /\ In (ETold w t') (m_log b)).
Proof.
  intro H. revert t. induction H as [s|s x s1 s2 HA HE HL IH]; intros t HS HI; [left; exists t; split; [lia|exact HI]|].
  destruct (step_moves s x s1 HS HE) as [new HM]. pose proof (step_good s x HS HA) as HG. rewrite HE in HG. cbn [good] in HG.
  destruct (mv_kept _ _ _ _ HM w t HI) as [(t1 & HT & HI1)|HT].
  - destruct (IH t1 HG HI1) as [(t' & ? & ?)|(t' & ? & ?)]; [left|right]; exists t'; (split; [lia|assumption]).
  - right. exists t. split; [lia|].
    assert (HIN : In (ETold w t) (m_log s1)) by (rewrite (mv_log _ _ _ _ HM); apply in_or_app; auto).
    clear - HL HG HIN. induction HL as [|s x s1 s2 HA HE HL IH]; [exact HIN|]. apply IH.
    + pose proof (step_good s x HG HA) as H. rewrite HE in H. exact H.
    + destruct (step_moves s x s1 HG HE) as [new HM]. rewrite (mv_log _ _ _ _ HM). apply in_or_app. auto.
Qed.
Lemma idle_waits s wt t : shape s -> m_inflush s = false -> In (wt, t) (waitlist s) -> m_pending s = true /\ In wt (m_pwait s) /\ m_b2b s <> O.
Proof.
  intros HS HI HW. shapes HS; flat; try discriminate. unfold waitlist, proms in HW. flat. cbn [concat at_ map app] in HW. rewrite !app_nil_r, at_in in HW.
  destruct pe; [|destruct HW as [[] _]]. destruct HW as [HW _]. auto.
Qed.
Lemma waiter_served s w t : shape s -> In (w, t) (waitlist s) -> exists s' t', settles s s' /\ t <= t' /\ In (ETold w t') (m_log s').
Proof.
  intros HS HI. destruct (to_idle (S (measure s)) s) as (s1 & HS1 & HID & _); [lia|exact HS|].
  pose proof (leads_shape _ _ (settles_leads _ _ HS1) HS) as HSH1.
  destruct (waiter_kept _ _ w t (settles_leads _ _ HS1) HS HI) as [(t1 & HT & HI1)|(t1 & HT & HI1)]; [|eauto].
  destruct (idle_waits s1 w t1 HSH1 HID HI1) as (HP & HW & HB).
  assert (HST : exists s2, step s1 AB2B = Ok s2 /\ shape s2 /\ clear s2).
  { pose proof (b2b_good s1 HSH1) as HG. cbn [step]. revert HG. unfold b2b. destruct (m_b2b s1) as [|k]; [congruence|]. unfold trigger.
    clear - HSH1 HID. shapes HSH1; flat; try discriminate. eqz. flat. cbn [good]. eqz. intro HG. eexists. split; [reflexivity|]. split; [exact HG|].
    right. flat. eauto. }
  destruct HST as (s2 & HE2 & HSH2 & HC2).
  assert (HL2 : leads s1 s2) by (econstructor; [|exact HE2|constructor]; exact I).
  destruct (to_idle (S (measure s2)) s2) as (s3 & HS3 & HID3 & HC3); [lia|exact HSH2|].
  pose proof (leads_shape _ _ (settles_leads _ _ HS3) HSH2) as HSH3.
  assert (HS13 : settles s1 s3) by (econstructor; [| |exact HE2|exact HS3]; exact I).
  destruct (waiter_kept _ _ w t1 (settles_leads _ _ HS13) HSH1 HI1) as [(t3 & HT3 & HI3)|(t3 & HT3 & HI3)].
  - exfalso. destruct (idle_waits s3 w t3 HSH3 HID3 HI3) as (HP3 & _). specialize (HC3 HC2). destruct HC3 as [HC3|(c & x & HC3)]; [congruence|].
    clear - HSH3 HID3 HC3. shapes HSH3; flat; discriminate.
  - exists s3, t3. split; [eapply settles_trans; eauto|]. split; [lia|exact HI3].
Qed.
