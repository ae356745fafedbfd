(** * Proofs about the walk over the links after a crash. *)
From Coq Require Import ZArith List Bool Arith Lia.
From Verif Require Import Base WbModel WbSpec WbProofs DagModel DagSpec RecovModel RecovSpec.
Import ListNotations.

Section Walk.
Variable ismeta : nat -> bool.
Variable d : dag.
Variable landed : nat -> bool.
Variable rk : nat -> nat.
Notation up0 b := (rb_up (d_buf d b)).
Notation fr b := (rb_freed (d_buf d b)).
Notation nw b := (rb_new (d_buf d b)).
Notation ids := (d_ids d).
Definition ok (x : nat) : bool := landed x && negb (ismeta x).
Definition moving (b : nat) : bool := nw b || fr b.
(** A node made or freed reports. *)
Definition com (b : nat) : bool := match up0 b with Some u => ok u | None => false end.
Definition live (g : nat -> bool) (u : nat) (b : nat) : bool :=
  match up0 b with Some x => Nat.eqb x u | None => false end && negb (g b).
Definition cntl (g : nat -> bool) (u : nat) : nat := length (filter (live g u) ids).
Definition setg (g : nat -> bool) (b x : nat) : bool := if Nat.eqb x b then true else g x.

Hypothesis Hnd : NoDup ids.
Hypothesis Hup : forall b u, up0 b = Some u -> In b ids /\ In u ids /\ nw u = false /\ fr u = false.
Hypothesis Hrk : forall b u, up0 b = Some u -> rk b < rk u.
Hypothesis Hrkb : forall b, In b ids -> rk b < length ids.
Hypothesis Hmv : forall b, moving b = true -> up0 b <> None.
Hypothesis Hw0 : forall u, rb_wait (d_buf d u) = Z.of_nat (length (filter (fun b => match up0 b with Some x => Nat.eqb x u | None => false end) ids)).
Hypothesis Hmt : forall b, ismeta b = true -> up0 b = None.
Hypothesis Hcl : forall b u, up0 b = Some u -> ok u = true -> fr b = false -> landed b = true.
Hypothesis Hdn : forall b u, up0 b = Some u -> ismeta u = false -> moving b = false -> exists x, up0 x = Some b.

Lemma live_iff g u b : live g u b = true <-> up0 b = Some u /\ g b = false.
Proof.
  unfold live. rewrite andb_true_iff, negb_true_iff. destruct (up0 b) as [x|]; [|split; [intros [H _]|intros [H _]]; discriminate].
  rewrite Nat.eqb_eq. split; intros [H1 H2]; split; congruence.
Qed.
Lemma filter_len_ext (A : Type) (f h : A -> bool) l : (forall x, In x l -> f x = h x) -> length (filter f l) = length (filter h l).
Proof.
  induction l as [|x l IH]; intros H; [reflexivity|]. cbn. rewrite (H x) by now left.
  destruct (h x); cbn; rewrite IH; auto; intros y Hy; apply H; now right.
Qed.
Lemma filter_drop (f h : nat -> bool) x l : NoDup l -> In x l -> f x = true -> h x = false ->
  (forall y, y <> x -> h y = f y) -> length (filter f l) = S (length (filter h l)).
Proof.
  intros HN HI Hf Hh Ho. induction l as [|y l IH]; [destruct HI|]. inversion HN as [|? ? Hy HN']; subst. cbn.
  destruct (Nat.eq_dec y x) as [->|Hne].
  - rewrite Hf, Hh. cbn. f_equal. apply filter_len_ext. intros z Hz. symmetry. apply Ho. intros ->. contradiction.
  - destruct HI as [->|HI]; [congruence|]. rewrite (Ho y Hne). destruct (f y); cbn; rewrite (IH HN' HI); reflexivity.
Qed.
Lemma cnt_drop g b u : up0 b = Some u -> g b = false ->
  Z.of_nat (cntl (setg g b) u) = (Z.of_nat (cntl g u) - 1)%Z.
Proof.
  intros H1 H2. unfold cntl. rewrite (filter_drop (live g u) (live (setg g b) u) b ids Hnd).
  - lia.
  - apply (Hup b u H1).
  - apply live_iff. auto.
  - unfold live, setg. rewrite Nat.eqb_refl. apply andb_false_r.
  - intros y Hy. unfold live, setg. apply Nat.eqb_neq in Hy. now rewrite Hy.
Qed.
Lemma cnt_keep g b u x : up0 b = Some u -> x <> u -> cntl (setg g b) x = cntl g x.
Proof.
  intros H1 H2. unfold cntl. apply filter_len_ext. intros y _. unfold live, setg.
  destruct (Nat.eqb_spec y b) as [->|]; [|reflexivity]. rewrite H1. apply not_eq_sym, Nat.eqb_neq in H2. now rewrite H2.
Qed.
Lemma cnt_zero g u : cntl g u = 0 <-> forall b, up0 b = Some u -> g b = true.
Proof.
  unfold cntl. split.
  - intros H b Hb. destruct (g b) eqn:E; [reflexivity|]. exfalso.
    assert (HI : In b (filter (live g u) ids)) by (apply filter_In; split; [apply (Hup b u Hb)|now apply live_iff]).
    destruct (filter (live g u) ids); [destruct HI|discriminate].
  - intros H. destruct (filter (live g u) ids) as [|b l] eqn:E; [reflexivity|].
    assert (HI : In b (filter (live g u) ids)) by (rewrite E; now left). apply filter_In in HI.
    destruct HI as [_ HI]. apply live_iff in HI. destruct HI as [H1 H2]. rewrite (H b H1) in H2. discriminate.
Qed.
Lemma moving_up b u : up0 b = Some u -> moving u = false.
Proof. intros H. apply Hup in H. unfold moving. destruct H as (_ & _ & -> & ->). reflexivity. Qed.
Lemma up_ne b u : up0 b = Some u -> b <> u.
Proof. intros H ->. apply Hrk in H. lia. Qed.

(** ** The first pass *)
(** [g]: the buffers no longer counted above.  [hole]: where the walk up stands. *)
Record I1 (s : rst) (g : nat -> bool) (done : list nat) (hole : option nat) : Prop := mkI1 {
  i_up : forall b, moving b = false -> q_up s b = if g b then None else up0 b;
  i_mv : forall b, moving b = true -> ~ In b done -> q_up s b = up0 b;
  i_wait : forall u, q_wait s u = Z.of_nat (cntl g u);
  i_gone : forall b, moving b = false -> g b = true -> up0 b <> None /\ cntl g b = 0;
  i_rest : forall b, moving b = false -> up0 b <> None -> (exists x, up0 x = Some b) -> g b = false ->
             hole = Some b \/ cntl g b <> 0;
  i_g : forall b, moving b = true -> g b = mem b done && negb (com b);
  i_pruned : forall u, In u (q_pruned s) -> landed u = false \/ ismeta u = true }.

Definition same_rest (s s' : rst) : Prop :=
  q_pend s' = q_pend s /\ q_del s' = q_del s /\ q_kept s' = q_kept s /\ q_log s' = q_log s.

Lemma update_up_ok : forall n s g done b, I1 s g done (Some b) -> moving b = false -> g b = false ->
  In b ids -> length ids <= n + rk b + 1 ->
  exists s' g', update_up n s b = Some s' /\ I1 s' g' done None /\ same_rest s s' /\ q_pruned s' = q_pruned s /\
    (forall x, moving x = true -> q_up s' x = q_up s x).
Proof.
  induction n as [|n IH]; intros s g done b HI Hb Hg Hid Hn.
  - cbn [update_up]. destruct HI as [A1 A2 A3 A4 A5 A6 A7]. destruct (Z.eqb_spec (q_wait s b) 0) as [Ez|Ez]; cbn [negb].
    + rewrite A1, Hg by assumption. destruct (up0 b) as [p|] eqn:Eu.
      * exfalso. assert (X := Hrk b p Eu). assert (Y := Hrkb p). destruct (Hup b p Eu) as (_ & V & _). specialize (Y V). lia.
      * exists s, g. ands; auto; [|easy]. constructor; auto.
        intros x X1 X2 X3 X4. destruct (A5 x X1 X2 X3 X4) as [E|E]; [|auto]. injection E as <-. congruence.
    + exists s, g. ands; auto; [|easy]. constructor; auto. intros x X1 X2 X3 X4.
      destruct (A5 x X1 X2 X3 X4) as [E|E]; [|auto]. injection E as <-. right. rewrite A3 in Ez. lia.
  - cbn [update_up]. assert (HI' := HI). destruct HI as [A1 A2 A3 A4 A5 A6 A7].
    destruct (Z.eqb_spec (q_wait s b) 0) as [Ez|Ez]; cbn [negb].
    + rewrite A1, Hg by assumption. destruct (up0 b) as [p|] eqn:Eu.
      * destruct (Hup b p Eu) as (V1 & V2 & V3 & V4). assert (Hp := moving_up b p Eu). assert (Hbp := up_ne b p Eu).
        assert (Hgp : g p = false).
        { destruct (g p) eqn:E; [|reflexivity]. exfalso. destruct (A4 p Hp E) as [_ X].
          rewrite cnt_zero in X. rewrite (X b Eu) in Hg. discriminate. }
        destruct (IH (cut (dec s p) b) (setg g b) done p) as (s' & g' & E & HI2 & HS & HP & HM).
        -- constructor.
           ++ intros x Hx. cbn [q_up cut dec]. unfold setg. destruct (Nat.eqb_spec x b) as [->|]; [reflexivity|auto].
           ++ intros x Hx Hd. cbn [q_up cut dec]. destruct (Nat.eqb_spec x b) as [->|]; [congruence|auto].
           ++ intros u. cbn [q_wait cut dec]. destruct (Nat.eqb_spec u p) as [->|Hne].
              ** rewrite (cnt_drop g b p Eu Hg). now rewrite A3.
              ** rewrite (cnt_keep g b p u Eu Hne). apply A3.
           ++ intros x Hx. unfold setg. destruct (Nat.eqb_spec x b) as [->|Hxb].
              ** intros _. split; [congruence|]. fold (setg g b). rewrite (cnt_keep g b p b Eu Hbp). rewrite A3 in Ez. lia.
              ** intros Hgx. destruct (A4 x Hx Hgx) as [X1 X2]. split; [assumption|]. fold (setg g b).
                 rewrite (cnt_keep g b p x Eu); [assumption|]. intros ->. congruence.
           ++ intros x X1 X2 X3. unfold setg at 1. destruct (Nat.eqb_spec x b) as [->|Hxb]; [discriminate|]. intros X4.
              destruct (Nat.eq_dec x p) as [->|Hxp]; [now left|]. right. rewrite (cnt_keep g b p x Eu Hxp).
              destruct (A5 x X1 X2 X3 X4) as [E|E]; [congruence|assumption].
           ++ intros x Hx. unfold setg. destruct (Nat.eqb_spec x b) as [->|]; [congruence|auto].
           ++ assumption.
        -- assumption.
        -- unfold setg. destruct (Nat.eqb_spec p b); [congruence|assumption].
        -- assumption.
        -- assert (X := Hrk b p Eu). lia.
        -- exists s', g'. ands; auto. intros x Hx. rewrite HM by assumption. cbn [q_up cut dec].
           destruct (Nat.eqb_spec x b) as [->|]; [congruence|reflexivity].
      * exists s, g. ands; auto; [|easy]. constructor; auto.
        intros x X1 X2 X3 X4. destruct (A5 x X1 X2 X3 X4) as [E|E]; [|auto]. injection E as <-. congruence.
    + exists s, g. ands; auto; [|easy]. constructor; auto. intros x X1 X2 X3 X4.
      destruct (A5 x X1 X2 X3 X4) as [E|E]; [|auto]. injection E as <-. right. rewrite A3 in Ez. lia.
Qed.

Lemma not_ok u : ok u = false -> landed u = false \/ ismeta u = true.
Proof. unfold ok. destruct (landed u), (ismeta u); cbn; auto; discriminate. Qed.
Lemma ok_down b u : up0 b = Some u -> ok u = true -> fr b = false -> ok b = true.
Proof.
  intros H1 H2 H3. unfold ok. rewrite (Hcl b u H1 H2 H3). destruct (ismeta b) eqn:E; [|reflexivity].
  apply Hmt in E. congruence.
Qed.

Lemma prune_ok s g done b u : I1 s g done (Some u) -> q_up s b = Some u -> up0 b = Some u ->
  ok u = false -> g u = false ->
  exists s' g', prune ismeta d s b = Some s' /\ I1 s' g' done None /\ same_rest s s' /\
    (forall x, moving x = true -> q_up s' x = q_up s x).
Proof.
  intros HI Hq Hb Hok Hg. unfold prune. rewrite Hq. assert (Hu := moving_up b u Hb).
  destruct (Z.eqb_spec (q_wait s u) 0) as [Ez|Ez]; cbn [negb].
  - destruct (Hup b u Hb) as (V1 & V2 & V3 & V4).
    destruct (update_up_ok (length ids) s g done u HI Hu Hg V2) as (s1 & g1 & E & H1 & H2 & H3 & H4); [lia|].
    rewrite E. eexists _, g1. split; [reflexivity|].
    assert (Hq2 : q_up s u = up0 u) by (rewrite (i_up _ _ _ _ HI u Hu), Hg; reflexivity). rewrite Hq2.
    assert (Hpu : I1 (add_pruned s1 u) g1 done None).
    { destruct H1. constructor; auto. cbn [q_pruned add_pruned]. intros x Hx. apply in_app_iff in Hx.
      destruct Hx as [Hx|[<-|[]]]; [auto|]. now apply not_ok. }
    destruct (up0 u) as [p|] eqn:Ep; [|ands; auto].
    destruct (negb (ismeta p) && Z.eqb (q_wait (add_pruned s1 u) p) 0) eqn:Ec; [|ands; auto].
    ands; auto. destruct Hpu as [A1 A2 A3 A4 A5 A6 A7]. constructor; auto. cbn [q_pruned add_pruned]. intros x Hx. apply in_app_iff in Hx.
    destruct Hx as [Hx|[<-|[]]]; [auto|]. apply not_ok. destruct (ok p) eqn:Eo; [|reflexivity].
    rewrite (ok_down u p Ep Eo V4) in Hok. discriminate.
  - exists s, g. ands; auto; [|easy]. destruct HI as [A1 A2 A3 A4 A5 A6 A7]. constructor; auto. intros x X1 X2 X3 X4.
    destruct (A5 x X1 X2 X3 X4) as [E|E]; [|auto]. injection E as <-. right. rewrite A3 in Ez. lia.
Qed.

Definition pendof (b : nat) : list nat :=
  if moving b && com b then match up0 b with Some u => [u] | None => [] end else [].
Definition delb (b : nat) : bool := fr b && (com b || nw b).
Definition keptb (b : nat) : bool := if fr b then negb (com b) && negb (nw b) else nw b && com b.
Record I2 (s : rst) (done : list nat) : Prop := mkI2 {
  o_pend : q_pend s = flat_map pendof done;
  o_del : q_del s = filter delb done;
  o_kept : q_kept s = filter keptb done;
  o_log : q_log s = [] }.

(** A node made or freed that does not report is taken out. *)
Lemma take_out s g done b u : I1 s g done None -> moving b = true -> ~ In b done -> up0 b = Some u -> com b = false ->
  exists s' g', prune ismeta d (dec s u) b = Some s' /\ I1 s' g' (done ++ [b]) None /\ same_rest s s' /\
    (forall x, moving x = true -> q_up s' x = q_up s x).
Proof.
  intros [A1 A2 A3 A4 A5 A6 A7] Hm Hd Hu Hc.
  assert (Hg : g b = false) by (rewrite A6 by assumption; apply mem_false in Hd; now rewrite Hd).
  assert (Hmu := moving_up b u Hu).
  assert (Hgu : g u = false).
  { destruct (g u) eqn:E; [|reflexivity]. exfalso. destruct (A4 u Hmu E) as [_ X].
    rewrite cnt_zero in X. rewrite (X b Hu) in Hg. discriminate. }
  assert (Hub : u <> b) by (apply not_eq_sym, (up_ne b u Hu)).
  destruct (prune_ok (dec s u) (setg g b) (done ++ [b]) b u) as (s' & g' & E & H1 & H2 & H3).
  - constructor.
    + intros x Hx. cbn [q_up dec]. unfold setg. destruct (Nat.eqb_spec x b) as [->|]; [congruence|auto].
    + intros x Hx Hxd. apply A2; [assumption|]. intros X. apply Hxd, in_app_iff. now left.
    + intros x. cbn [q_wait dec]. destruct (Nat.eqb_spec x u) as [->|Hne].
      * rewrite (cnt_drop g b u Hu Hg). now rewrite A3.
      * rewrite (cnt_keep g b u x Hu Hne). apply A3.
    + intros x Hx. unfold setg at 1. destruct (Nat.eqb_spec x b) as [->|Hxb]; [congruence|]. intros Hgx.
      destruct (A4 x Hx Hgx) as [X1 X2]. split; [assumption|]. rewrite (cnt_keep g b u x Hu); [assumption|]. intros ->. congruence.
    + intros x X1 X2 X3. unfold setg at 1. destruct (Nat.eqb_spec x b) as [->|Hxb]; [congruence|]. intros X4.
      destruct (Nat.eq_dec x u) as [->|Hxp]; [now left|]. right. rewrite (cnt_keep g b u x Hu Hxp).
      destruct (A5 x X1 X2 X3 X4) as [E|E]; [congruence|assumption].
    + intros x Hx. unfold setg. destruct (Nat.eqb_spec x b) as [->|Hxb].
      * rewrite Hc. symmetry. rewrite andb_true_r. apply mem_iff, in_app_iff. right. now left.
      * rewrite A6 by assumption. f_equal. apply eq_iff_eq_true. rewrite !mem_iff, in_app_iff. cbn.
        split; [tauto|intros [H|[<-|[]]]; [assumption|congruence]].
    + assumption.
  - cbn [q_up dec]. rewrite A2 by assumption. exact Hu.
  - assumption.
  - unfold com in Hc. now rewrite Hu in Hc.
  - unfold setg. apply Nat.eqb_neq in Hub. now rewrite Hub.
  - exists s', g'. ands; auto.
Qed.

Lemma i1_done s g done b : I1 s g done None -> ~ In b done -> (moving b = true -> com b = true) -> I1 s g (done ++ [b]) None.
Proof.
  intros [A1 A2 A3 A4 A5 A6 A7] Hd Hc. constructor; auto.
  - intros x Hx Hxd. apply A2; [assumption|]. intros X. apply Hxd, in_app_iff. now left.
  - intros x Hx. rewrite A6 by assumption. destruct (com x) eqn:E; [now rewrite !andb_false_r|]. rewrite !andb_true_r.
    apply eq_iff_eq_true. rewrite !mem_iff, in_app_iff. cbn. split; [tauto|]. intros [H|[<-|[]]]; [assumption|].
    rewrite Hc in E by assumption. discriminate.
Qed.

Lemma flat_map_snoc {A B} (f : A -> list B) l x : flat_map f (l ++ [x]) = flat_map f l ++ f x.
Proof. rewrite flat_map_app. cbn. now rewrite app_nil_r. Qed.

Lemma wc_up (q : nat -> option nat) n b : fr b = false -> was_committed ismeta d landed n q (Some b) = ok b.
Proof. intros H. destruct n; cbn [was_committed]; now rewrite H. Qed.
Lemma wc_freed (q : nat -> option nat) b u : fr b = true -> q b = Some u -> up0 b = Some u ->
  was_committed ismeta d landed (length ids) q (Some b) = ok u.
Proof.
  intros H1 H2 H3. destruct (Hup b u H3) as (V1 & _ & _ & V4). destruct ids as [|y l] eqn:E; [destruct V1|].
  cbn [length was_committed]. rewrite H1, H2. rewrite <- (wc_up q (length l) u V4). reflexivity.
Qed.

Lemma first1_ok s g done b : I1 s g done None -> I2 s done -> ~ In b done ->
  exists s' g', first1 ismeta d landed s b = Some s' /\ I1 s' g' (done ++ [b]) None /\ I2 s' (done ++ [b]).
Proof.
  intros HI [P1 P2 P3 P4] Hd. unfold first1.
  destruct (fr b) eqn:Ef.
  - assert (Hm : moving b = true) by (unfold moving; rewrite Ef; apply orb_true_r).
    destruct (up0 b) as [u|] eqn:Eu; [|now apply Hmv in Hm].
    assert (Hq : q_up s b = Some u) by (rewrite (i_mv _ _ _ _ HI b Hm Hd); exact Eu).
    assert (Hc : com b = ok u) by (unfold com; now rewrite Eu).
    rewrite (wc_freed _ b u Ef Hq Eu). destruct (ok u) eqn:Eo.
    + rewrite Hq. eexists _, g. split; [reflexivity|]. split.
      * apply i1_done; [|assumption|auto]. destruct HI. constructor; auto.
      * constructor; cbn [q_pend q_del q_kept q_log add_pend add_del].
        -- rewrite P1, flat_map_snoc. unfold pendof at 3. now rewrite Hm, Hc, Eu.
        -- rewrite P2, filter_app. cbn. unfold delb at 3. now rewrite Ef, Hc.
        -- rewrite P3, filter_app. cbn. unfold keptb at 3. rewrite Ef, Hc. cbn. now rewrite app_nil_r.
        -- assumption.
    + set (s1 := if nw b then add_del s b else add_kept s b).
      assert (HI1 : I1 s1 g done None) by (destruct HI; subst s1; destruct (nw b); constructor; auto).
      assert (Hq1 : q_up s1 b = Some u) by (subst s1; destruct (nw b); assumption). rewrite Hq1.
      destruct (take_out s1 g done b u HI1 Hm Hd Eu Hc) as (s2 & g2 & E & H1 & H2 & H3).
      rewrite E. eexists _, g2. split; [reflexivity|]. split.
      * destruct H1 as [A1 A2 A3 A4 A5 A6 A7]. constructor; auto.
        -- intros x Hx. cbn [q_up cut]. destruct (Nat.eqb_spec x b) as [->|]; [congruence|auto].
        -- intros x Hx Hxd. cbn [q_up cut]. destruct (Nat.eqb_spec x b) as [->|]; [|auto].
           exfalso. apply Hxd, in_app_iff. right. now left.
      * destruct H2 as (V1 & V2 & V3 & V4). constructor; cbn [q_pend q_del q_kept q_log cut]; rewrite ?V1, ?V2, ?V3, ?V4.
        -- rewrite flat_map_snoc. unfold pendof at 2. rewrite Hm, Hc. cbn. rewrite app_nil_r. subst s1. now destruct (nw b).
        -- rewrite filter_app. cbn. unfold delb at 2. rewrite Ef, Hc. subst s1.
           destruct (nw b); cbn [q_del add_del add_kept orb andb]; rewrite P2; [reflexivity|now rewrite app_nil_r].
        -- rewrite filter_app. cbn. unfold keptb at 2. rewrite Ef, Hc. subst s1.
           destruct (nw b); cbn [q_kept add_del add_kept negb andb]; rewrite P3; [now rewrite app_nil_r|reflexivity].
        -- subst s1. now destruct (nw b).
  - destruct (nw b) eqn:En.
    + assert (Hm : moving b = true) by (unfold moving; now rewrite En).
      destruct (up0 b) as [u|] eqn:Eu; [|now apply Hmv in Hm].
      assert (Hq : q_up s b = Some u) by (rewrite (i_mv _ _ _ _ HI b Hm Hd); exact Eu).
      assert (Hc : com b = ok u) by (unfold com; now rewrite Eu).
      rewrite Hq, (wc_up _ _ b Ef). destruct (Hup b u Eu) as (_ & _ & _ & V4). rewrite (wc_up _ _ u V4).
      destruct (ok u) eqn:Eo.
      * rewrite (ok_down b u Eu Eo Ef). cbn [andb]. eexists _, g. split; [reflexivity|]. split.
        -- apply i1_done; [|assumption|auto]. destruct HI. constructor; auto.
        -- constructor; cbn [q_pend q_del q_kept q_log add_pend add_kept].
           ++ rewrite P1, flat_map_snoc. unfold pendof at 3. now rewrite Hm, Hc, Eu.
           ++ rewrite P2, filter_app. cbn. unfold delb at 3. rewrite Ef. cbn. now rewrite app_nil_r.
           ++ rewrite P3, filter_app. cbn. unfold keptb at 3. now rewrite Ef, En, Hc.
           ++ assumption.
      * rewrite andb_false_r. destruct (take_out s g done b u HI Hm Hd Eu Hc) as (s2 & g2 & E & H1 & H2 & H3).
        rewrite E. exists s2, g2. split; [reflexivity|]. split; [assumption|].
        destruct H2 as (V1 & V2 & V3 & V5). constructor; rewrite ?V1, ?V2, ?V3, ?V5.
        -- rewrite P1, flat_map_snoc. unfold pendof at 3. rewrite Hm, Hc. cbn. now rewrite app_nil_r.
        -- rewrite P2, filter_app. cbn. unfold delb at 3. rewrite Ef. cbn. now rewrite app_nil_r.
        -- rewrite P3, filter_app. cbn. unfold keptb at 3. rewrite Ef, En, Hc. cbn. now rewrite app_nil_r.
        -- assumption.
    + exists s, g. split; [reflexivity|]. assert (Hm : moving b = false) by (unfold moving; now rewrite Ef, En). split.
      * apply i1_done; [assumption|assumption|congruence].
      * constructor.
        -- rewrite P1, flat_map_snoc. unfold pendof at 3. rewrite Hm. cbn. now rewrite app_nil_r.
        -- rewrite P2, filter_app. cbn. unfold delb at 3. rewrite Ef. cbn. now rewrite app_nil_r.
        -- rewrite P3, filter_app. cbn. unfold keptb at 3. rewrite Ef, En. cbn. now rewrite app_nil_r.
        -- assumption.
Qed.

Lemma first_ok : forall l s g done, I1 s g done None -> I2 s done -> NoDup (done ++ l) ->
  exists s' g', first ismeta d landed s l = Some s' /\ I1 s' g' (done ++ l) None /\ I2 s' (done ++ l).
Proof.
  induction l as [|b l IH]; intros s g done HI HP HN.
  - exists s, g. rewrite app_nil_r. auto.
  - cbn [first]. assert (Hb : ~ In b done).
    { apply NoDup_remove_2 in HN. intros X. apply HN, in_app_iff. now left. }
    destruct (first1_ok s g done b HI HP Hb) as (s1 & g1 & E & H1 & H2). rewrite E.
    replace (done ++ b :: l) with ((done ++ [b]) ++ l) in * by (now rewrite <- app_assoc).
    exact (IH s1 g1 (done ++ [b]) H1 H2 HN).
Qed.

Lemma start_ok1 : I1 (start d) (fun _ => false) [] None /\ I2 (start d) [].
Proof.
  split; constructor; try reflexivity; try (intros; discriminate); auto.
  - intros u. cbn [q_wait start]. rewrite Hw0. unfold cntl. f_equal. apply filter_len_ext. intros b _.
    unfold live. now rewrite andb_true_r.
  - intros b H1 H2 (x & Hx) _. right. intros X. rewrite cnt_zero in X. specialize (X x Hx). discriminate.
Qed.

(** ** The second pass *)
Section Second.
Variable g : nat -> bool.
(** What the first pass leaves. *)
Hypothesis Hgone : forall b, moving b = false -> g b = true -> up0 b <> None /\ cntl g b = 0.
Hypothesis Hrest : forall b, moving b = false -> up0 b <> None -> (exists x, up0 x = Some b) -> g b = false -> cntl g b <> 0.
Hypothesis Hg : forall b, In b ids -> moving b = true -> g b = negb (com b).

Definition evof (b : nat) : revent :=
  if ok b then match up0 b with Some u => if ismeta u then Root b else Fine b | None => Fine b end else Repair b.
(** [r]: the buffers that have reported.  [vs]: the buffers visited, in order.  [hole]: a buffer visited
    that has not reported yet. *)
Record J (s : rst) (r : nat -> bool) (vs : list nat) (hole : option nat) : Prop := mkJ {
  j_up : forall b, moving b = false -> q_up s b = if g b then None else up0 b;
  j_wait : forall u, q_wait s u = Z.of_nat (cntl (fun x => g x || r x) u);
  j_log : q_log s = map evof vs;
  j_nd : NoDup vs;
  j_vis : forall b x, moving b = false -> up0 x = Some b -> g x = false ->
            (cntl (fun x => g x || r x) b = 0 <-> In b vs);
  j_old : forall b, In b vs -> exists x, up0 x = Some b /\ g x = false;
  j_rep : forall b, moving b = false -> up0 b <> None -> hole <> Some b -> (r b = true <-> In b vs);
  j_hole : forall b, hole = Some b -> r b = false /\ (moving b = false -> In b vs);
  j_ord : forall l1 b l2, vs = l1 ++ b :: l2 -> forall x, up0 x = Some b -> g x = false -> moving x = false -> In x l1 }.

Lemma alive_up b u : up0 b = Some u -> g b = false -> g u = false.
Proof.
  intros H1 H2. destruct (g u) eqn:E; [|reflexivity]. exfalso.
  destruct (Hgone u (moving_up b u H1) E) as [_ X]. rewrite cnt_zero in X. rewrite (X b H1) in H2. discriminate.
Qed.
Lemma setg_or r x y : (g y || setg r x y) = setg (fun z => g z || r z) x y.
Proof. unfold setg. destruct (Nat.eqb y x); [apply orb_true_r|reflexivity]. Qed.
Lemma cntl_ext f h u : (forall x, f x = h x) -> cntl f u = cntl h u.
Proof. intros H. apply filter_len_ext. intros x _. unfold live. now rewrite H. Qed.

Lemma report s r vs x u : J s r vs (Some x) -> up0 x = Some u -> g x = false ->
  let s1 := dec s u in
  g u = false /\
  (q_wait s1 u <> 0%Z -> J s1 (setg r x) vs None) /\
  (q_wait s1 u = 0%Z -> J (add_log s1 (evof u)) (setg r x) (vs ++ [u]) (match up0 u with Some _ => Some u | None => None end)).
Proof.
  intros [A1 A2 A3 A4 A5 A6 A7 A8 A9] Hx Hgx s1. destruct (A8 x eq_refl) as [Hrx Hvx].
  assert (Hu := moving_up x u Hx). assert (Hgu := alive_up x u Hx Hgx).
  set (r1 := setg r x).
  assert (Hc : forall y, cntl (fun z => g z || r1 z) y = cntl (setg (fun z => g z || r z) x) y).
  { intros y. apply cntl_ext. intros z. apply setg_or. }
  assert (Hw : forall y, q_wait s1 y = Z.of_nat (cntl (fun z => g z || r1 z) y)).
  { intros y. unfold s1. cbn [q_wait dec]. rewrite Hc. destruct (Nat.eqb_spec y u) as [->|Hne].
    - rewrite (cnt_drop _ x u Hx) by (now rewrite Hgx, Hrx). now rewrite A2.
    - rewrite (cnt_keep _ x u y Hx Hne). apply A2. }
  assert (Hnv : ~ In u vs).
  { intros X. apply (A5 u x Hu Hx Hgx) in X. rewrite cnt_zero in X. specialize (X x Hx). cbn beta in X.
    rewrite Hgx, Hrx in X. discriminate. }
  assert (Hvis : forall b y, b <> u -> moving b = false -> up0 y = Some b -> g y = false ->
            (cntl (fun z => g z || r1 z) b = 0 <-> In b vs)).
  { intros b y Hbu Hb Hy Hgy. rewrite Hc, (cnt_keep _ x u b Hx Hbu). exact (A5 b y Hb Hy Hgy). }
  assert (Hrep : forall b, moving b = false -> up0 b <> None -> (r1 b = true <-> In b vs)).
  { intros b Hb Hub. unfold r1, setg. destruct (Nat.eqb_spec b x) as [->|Hbx]; [split; auto|].
    apply A7; auto. congruence. }
  split; [assumption|]. split; intros Hz.
  - constructor; auto.
    + intros b y Hb Hy Hgy. destruct (Nat.eq_dec b u) as [->|Hbu]; [|now apply (Hvis b y)].
      split; [intros X; exfalso; apply Hz; rewrite Hw, X; reflexivity|contradiction].
    + intros b Hb. discriminate.
  - constructor; auto.
    + cbn [q_log add_log]. unfold s1. cbn [q_log dec]. rewrite A3, map_app. reflexivity.
    + rewrite <- (rev_involutive (vs ++ [u])). apply NoDup_rev. rewrite rev_app_distr. cbn.
      constructor; [now rewrite <- in_rev|now apply NoDup_rev].
    + intros b y Hb Hy Hgy. rewrite in_app_iff. destruct (Nat.eq_dec b u) as [->|Hbu].
      * split; [intros _; right; now left|]. intros _. rewrite Hw in Hz. lia.
      * rewrite (Hvis b y Hbu Hb Hy Hgy). cbn. split; [tauto|]. intros [X|[X|[]]]; congruence.
    + intros b Hb. apply in_app_iff in Hb. destruct Hb as [Hb|[<-|[]]]; [auto|]. eauto.
    + intros b Hb Hub Hh. rewrite (Hrep b Hb Hub), in_app_iff. cbn. split; [tauto|]. intros [X|[<-|[]]]; [assumption|].
      exfalso. destruct (up0 u); congruence.
    + intros b Hh. destruct (up0 u) as [p|] eqn:Ep; [|discriminate]. injection Hh as <-. split; [|intros _; apply in_app_iff; right; now left].
      destruct (r1 u) eqn:Er; [|reflexivity]. apply Hrep in Er; [contradiction|assumption|congruence].
    + intros l1 b l2 E y Hy Hgy Hym.
      destruct (exists_last (l := b :: l2)) as (l3 & z & El); [discriminate|].
      rewrite El, app_assoc in E. apply app_inj_tail in E. destruct E as [E1 E2]. subst z.
      destruct l3 as [|z l3]; cbn in El; injection El as El1 El2.
      * subst b. rewrite app_nil_r in E1. subst l1. rewrite Hw in Hz.
        assert (Hz' : cntl (fun z => g z || r1 z) u = 0) by lia. rewrite cnt_zero in Hz'. specialize (Hz' y Hy). cbn beta in Hz'.
        rewrite Hgy in Hz'. cbn in Hz'. apply Hrep; auto. congruence.
      * subst z. exact (A9 l1 b l3 E1 y Hy Hgy Hym).
Qed.

Lemma recover_ok : forall n s r vs x u, J s r vs (Some x) -> up0 x = Some u -> g x = false ->
  length ids <= n + rk u + 1 ->
  exists s' r' vs', recover_buf ismeta d landed n s u = Some s' /\ J s' r' (vs ++ vs') None /\
    (forall y, moving y = true -> r' y = setg r x y) /\
    q_pend s' = q_pend s /\ q_del s' = q_del s /\ q_kept s' = q_kept s /\ q_pruned s' = q_pruned s.
Proof.
  induction n as [|n IH]; intros s r vs x u HJ Hx Hgx Hn;
    destruct (report s r vs x u HJ Hx Hgx) as (Hgu & R1 & R2);
    destruct (Hup x u Hx) as (V1 & V2 & V3 & V4);
    assert (Hq : q_up (dec s u) u = up0 u) by (cbn [q_up dec]; rewrite (j_up _ _ _ _ HJ u (moving_up x u Hx)), Hgu; reflexivity);
    cbn [recover_buf]; destruct (Z.eqb_spec (q_wait (dec s u) u) 0) as [Ez|Ez]; cbn [negb].
  - specialize (R2 Ez). rewrite (wc_up _ _ u V4), Hq. cbn [q_up add_log]. rewrite Hq.
    fold (evof u). destruct (up0 u) as [p|] eqn:Ep.
    + exfalso. assert (X := Hrk u p Ep). assert (Y := Hrkb p). destruct (Hup u p Ep) as (_ & V & _). specialize (Y V). lia.
    + eexists _, (setg r x), [u]. split; [reflexivity|]. split; [exact R2|auto].
  - exists (dec s u), (setg r x), []. rewrite app_nil_r. auto 10.
  - specialize (R2 Ez). rewrite (wc_up _ _ u V4), Hq. cbn [q_up add_log]. rewrite Hq.
    unfold evof in R2. destruct (up0 u) as [p|] eqn:Ep.
    + destruct (IH _ _ _ u p R2 Ep Hgu) as (s' & r' & vs' & E & HJ' & H1 & H2); [assert (X := Hrk u p Ep); lia|].
      exists s', r', (u :: vs'). rewrite E. split; [reflexivity|]. rewrite <- app_assoc in HJ'. split; [exact HJ'|].
      split; [|exact H2]. intros y Hy. rewrite H1 by assumption. unfold setg at 1.
      destruct (Nat.eqb_spec y u) as [->|]; [|reflexivity]. rewrite (moving_up x u Hx) in Hy. discriminate.
    + eexists _, (setg r x), [u]. split; [reflexivity|]. split; [exact R2|auto].
  - exists (dec s u), (setg r x), []. rewrite app_nil_r. auto 10.
Qed.

Lemma j_none s r vs x : J s r vs None -> moving x = true -> r x = false -> J s r vs (Some x).
Proof.
  intros [A1 A2 A3 A4 A5 A6 A7 A8 A9] Hm Hr. constructor; auto.
  - intros b Hb Hub _. apply A7; auto. discriminate.
  - intros b E. injection E as <-. split; [assumption|congruence].
Qed.

Lemma pending_ok : forall l s r vs, J s r vs None -> NoDup l -> (forall x, In x l -> In x ids) ->
  (forall x, In x l -> moving x = true -> r x = false) ->
  exists s' r' vs', pending ismeta d landed s (flat_map pendof l) = Some s' /\ J s' r' vs' None /\
    (forall y, moving y = true -> r' y = r y || (mem y l && com y)) /\
    q_pend s' = q_pend s /\ q_del s' = q_del s /\ q_kept s' = q_kept s /\ q_pruned s' = q_pruned s.
Proof.
  induction l as [|x l IH]; intros s r vs HJ HN Hi Hr.
  - exists s, r, vs. ands; auto. intros y _. now rewrite orb_false_r.
  - inversion HN as [|? ? Hx HN']; subst. cbn [flat_map]. unfold pendof at 1.
    destruct (moving x && com x) eqn:E.
    + apply andb_true_iff in E. destruct E as [Em Ec]. destruct (up0 x) as [u|] eqn:Eu; [|now apply Hmv in Em].
      cbn [app pending].
      assert (Hgx : g x = false) by (rewrite Hg, Ec by (auto; apply Hi; now left); reflexivity).
      destruct (recover_ok (length ids) s r vs x u) as (s1 & r1 & vs1 & E1 & HJ1 & H1 & H2 & H3 & H4 & H5); auto.
      { apply j_none; auto. apply Hr; [now left|assumption]. }
      { lia. }
      rewrite E1. destruct (IH s1 r1 (vs ++ vs1) HJ1 HN') as (s2 & r2 & vs2 & E2 & HJ2 & K1 & K2 & K3 & K4 & K5).
      { intros y Hy. apply Hi. now right. }
      { intros y Hy Hym. rewrite H1 by assumption. unfold setg. destruct (Nat.eqb_spec y x) as [->|]; [contradiction|].
        apply Hr; [now right|assumption]. }
      exists s2, r2, vs2. ands; auto; try congruence. intros y Hy. rewrite K1, H1 by assumption. unfold setg. cbn [mem existsb].
      rewrite (Nat.eqb_sym y x). destruct (Nat.eqb_spec x y) as [->|]; [rewrite Ec; cbn; now rewrite orb_true_r|reflexivity].
    + cbn [app]. destruct (IH s r vs HJ HN') as (s2 & r2 & vs2 & E2 & HJ2 & K1 & K2).
      { intros y Hy. apply Hi. now right. }
      { intros y Hy. apply Hr. now right. }
      exists s2, r2, vs2. ands; auto; try tauto. intros y Hy. rewrite K1 by assumption. f_equal. cbn [mem existsb].
      destruct (Nat.eqb_spec y x) as [->|]; [|reflexivity]. rewrite Hy in E. cbn in E. now rewrite E, !andb_false_r.
Qed.

Inductive tc : nat -> nat -> Prop :=
| T1 b u : up0 b = Some u -> tc b u
| T2 b m u : up0 b = Some m -> tc m u -> tc b u.

Lemma tc_ord s r vs : J s r vs None -> forall b u, tc b u -> g b = false -> moving b = false ->
  forall l1 l2, vs = l1 ++ u :: l2 -> In b l1.
Proof.
  intros HJ b u H. induction H as [b u H|b m u H H2 IH]; intros Hgb Hmb l1 l2 E.
  - exact (j_ord _ _ _ _ HJ l1 u l2 E b H Hgb Hmb).
  - specialize (IH (alive_up b m H Hgb) (moving_up b m H) l1 l2 E).
    apply in_split in IH. destruct IH as (a & c & ->). rewrite <- app_assoc in E. cbn in E.
    apply in_app_iff. left. exact (j_ord _ _ _ _ HJ a m _ E b H Hgb Hmb).
Qed.

(** At the end everything that is counted has reported. *)
Lemma all_seen s r vs : J s r vs None -> (forall x, In x ids -> moving x = true -> g x = false -> r x = true) ->
  forall n u x, rk u < n -> ismeta u = false -> up0 x = Some u -> g x = false -> In u vs.
Proof.
  intros HJ Hr. induction n as [|n IH]; intros u x Hn Hm Hx Hgx; [lia|].
  apply (j_vis _ _ _ _ HJ u x (moving_up x u Hx) Hx Hgx). apply cnt_zero. intros y Hy.
  destruct (g y) eqn:Eg; [reflexivity|]. cbn. destruct (Hup y u Hy) as (Y1 & _).
  destruct (moving y) eqn:Em; [now apply Hr|].
  assert (Hyu : up0 y <> None) by congruence.
  assert (Hz := Hrest y Em Hyu (Hdn y u Hy Hm Em) Eg).
  destruct (existsb (live g y) ids) eqn:Ez.
  - apply existsb_exists in Ez. destruct Ez as (z & _ & Ez). apply live_iff in Ez. destruct Ez as [Z1 Z2].
    apply (j_rep _ _ _ _ HJ y Em Hyu); [discriminate|]. apply (IH y z); auto.
    + assert (X := Hrk y u Hy). lia.
    + destruct (ismeta y) eqn:E; [|reflexivity]. apply Hmt in E. congruence.
  - exfalso. apply Hz. apply cnt_zero. intros z Z. destruct (g z) eqn:E; [reflexivity|].
    assert (X : existsb (live g y) ids = true); [|congruence]. apply existsb_exists. exists z. split; [apply (Hup z y Z)|now apply live_iff].
Qed.

(** Below a node not on disk that is visited there is a node on disk. *)
Lemma alive_landed : forall n u x, rk u < n -> ismeta u = false -> ok u = false -> up0 x = Some u -> g x = false ->
  exists h, tc h u /\ landed h = true /\ moving h = false.
Proof.
  induction n as [|n IH]; intros u x Hn Hm Hok Hx Hgx; [lia|]. destruct (Hup x u Hx) as (X1 & _).
  destruct (moving x) eqn:Em.
  - rewrite (Hg x X1 Em) in Hgx. unfold com in Hgx. rewrite Hx, Hok in Hgx. discriminate.
  - destruct (ok x) eqn:Eo.
    + exists x. ands; [now apply T1| |assumption]. unfold ok in Eo. now apply andb_true_iff in Eo.
    + assert (Hxu : up0 x <> None) by congruence.
      assert (Hz := Hrest x Em Hxu (Hdn x u Hx Hm Em) Hgx).
      destruct (existsb (live g x) ids) eqn:Ez.
      * apply existsb_exists in Ez. destruct Ez as (z & _ & Ez). apply live_iff in Ez. destruct Ez as [Z1 Z2].
        destruct (IH x z) as (h & H1 & H2 & H3); auto.
        -- assert (X := Hrk x u Hx). lia.
        -- destruct (ismeta x) eqn:E; [|reflexivity]. apply Hmt in E. congruence.
        -- exists h. ands; auto. clear - H1 Hx. induction H1; [eapply T2; [eassumption|now apply T1]|eapply T2; eauto].
      * exfalso. apply Hz. apply cnt_zero. intros z Z. destruct (g z) eqn:E; [reflexivity|].
        assert (X : existsb (live g x) ids = true); [|congruence]. apply existsb_exists. exists z. split; [apply (Hup z x Z)|now apply live_iff].
Qed.

(** A node on disk reports. *)
Lemma landed_alive : forall n h p, rk h < n -> ok h = true -> moving h = false -> up0 h = Some p -> ismeta p = false -> g h = false.
Proof.
  induction n as [|n IH]; intros h p Hn Hok Hm Hp Hmp; [lia|].
  destruct (Hdn h p Hp Hmp Hm) as (x & Hx). destruct (Hup x h Hx) as (X1 & _).
  assert (Hmh : ismeta h = false) by (unfold ok in Hok; apply andb_true_iff in Hok; now apply negb_true_iff).
  destruct (moving x) eqn:Em.
  - apply (alive_up x h Hx). rewrite (Hg x X1 Em). unfold com. now rewrite Hx, Hok.
  - apply (alive_up x h Hx). apply (IH x h); auto.
    + assert (X := Hrk x h Hx). lia.
    + apply (ok_down x h Hx Hok). unfold moving in Em. now apply orb_false_iff in Em.
Qed.
Lemma tc_alive : forall h u, tc h u -> ismeta u = false -> ok h = true -> moving h = false ->
  exists x, up0 x = Some u /\ g x = false.
Proof.
  intros h u H Hm Hok Hmv'.
  assert (Hgh : g h = false).
  { destruct H as [h u H|h m u H H2].
    - exact (landed_alive (S (rk h)) h u (Nat.lt_succ_diag_r _) Hok Hmv' H Hm).
    - refine (landed_alive (S (rk h)) h m (Nat.lt_succ_diag_r _) Hok Hmv' H _).
      destruct (ismeta m) eqn:E; [|reflexivity]. apply Hmt in E. inversion H2; congruence. }
  clear Hok Hmv'. induction H as [b u H|b m u H H2 IH]; [eauto|]. apply IH; [assumption|]. exact (alive_up b m H Hgh).
Qed.
End Second.

Theorem walk_ok order : NoDup order -> (forall x, In x order <-> In x ids) ->
  exists s vs, walk ismeta d landed order = Some s /\
    q_log s = map evof vs ++ map Pruned (q_pruned s) ++ map Free (q_del s) /\
    q_del s = filter delb order /\ q_kept s = filter keptb order /\ NoDup vs /\
    (forall u, ismeta u = false -> ok u = false -> (In u vs <-> exists h, tc h u /\ landed h = true /\ moving h = false)) /\
    (forall l1 u l2, vs = l1 ++ u :: l2 -> forall b, tc b u -> In b vs -> In b l1) /\
    (forall u, In u (q_pruned s) -> landed u = false \/ ismeta u = true).
Proof.
  intros HN HO. destruct start_ok1 as [S1 S2].
  destruct (first_ok order (start d) (fun _ => false) [] S1 S2 HN) as (s1 & g & E1 & H1 & H2). cbn [app] in *.
  destruct H1 as [A1 A2 A3 A4 A5 A6 A7]. destruct H2 as [P1 P2 P3 P4].
  assert (Hrest : forall b, moving b = false -> up0 b <> None -> (exists x, up0 x = Some b) -> g b = false -> cntl g b <> 0).
  { intros b B1 B2 B3 B4. destruct (A5 b B1 B2 B3 B4) as [X|X]; [discriminate|assumption]. }
  assert (Hg : forall b, In b ids -> moving b = true -> g b = negb (com b)).
  { intros b B1 B2. rewrite A6 by assumption. apply HO in B1. apply mem_iff in B1. now rewrite B1. }
  assert (Hg0 : forall u, cntl (fun x => g x || false) u = cntl g u).
  { intros u. apply cntl_ext. intros x. apply orb_false_r. }
  assert (HJ : J g s1 (fun _ => false) [] None).
  { constructor; auto.
    - intros u. now rewrite Hg0.
    - constructor.
    - intros b x B1 B2 B3. rewrite Hg0. split; [|intros []]. rewrite cnt_zero. intros X. rewrite (X x B2) in B3. discriminate.
    - intros b [].
    - intros b B1 B2 B3. split; [discriminate|intros []].
    - intros b X. discriminate.
    - intros [|? ?] b l2 X; discriminate. }
  destruct (pending_ok g A4 Hrest Hg order s1 (fun _ => false) [] HJ HN) as (s2 & r & vs & E2 & HJ2 & K1 & K2 & K3 & K4 & K5); auto.
  { intros x Hx. now apply HO. }
  unfold walk. rewrite E1, P1, E2. eexists _, vs. split; [reflexivity|]. cbn [q_log q_del q_kept q_pruned].
  assert (Hr : forall x, In x ids -> moving x = true -> g x = false -> r x = true).
  { intros x X1 X2 X3. rewrite K1 by assumption. rewrite (Hg x X1 X2) in X3. apply negb_false_iff in X3. rewrite X3.
    apply HO, mem_iff in X1. now rewrite X1. }
  split; [now rewrite (j_log _ _ _ _ _ HJ2)|]. split; [congruence|]. split; [congruence|].
  split; [exact (j_nd _ _ _ _ _ HJ2)|]. split; [|split].
  - intros u U1 U2. split.
    + intros Hu. destruct (j_old _ _ _ _ _ HJ2 u Hu) as (x & X1 & X2).
      exact (alive_landed g A4 Hrest Hg (S (rk u)) u x (Nat.lt_succ_diag_r _) U1 U2 X1 X2).
    + intros (h & T & L & M).
      assert (Hok : ok h = true).
      { unfold ok. rewrite L. destruct (ismeta h) eqn:E; [|reflexivity]. apply Hmt in E. inversion T; congruence. }
      destruct (tc_alive g A4 Hrest Hg h u T U1 Hok M) as (x & X1 & X2).
      exact (all_seen g A4 Hrest Hg s2 r vs HJ2 Hr (S (rk u)) u x (Nat.lt_succ_diag_r _) U1 X1 X2).
  - intros l1 u l2 E b T Hb. destruct (j_old _ _ _ _ _ HJ2 b Hb) as (x & X1 & X2).
    exact (tc_ord g A4 s2 r vs HJ2 b u T (alive_up g A4 x b X1 X2) (moving_up x b X1) l1 l2 E).
  - intros u Hu. apply A7. now rewrite <- K5.
Qed.
End Walk.
