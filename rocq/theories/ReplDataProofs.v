From Coq Require Import NArith List Bool Lia.
From Verif Require Import Base ReplDataModel ReplDataSpec.
Import ListNotations.

Fixpoint sum (f : pc -> nat) (l : list pc) : nat := match l with [] => 0 | p :: t => f p + sum f t end.
Lemma sum_app f a b : sum f (a ++ b) = sum f a + sum f b.
Proof. induction a as [|p a IH]; [reflexivity|]. cbn. rewrite IH. lia. Qed.
Lemma nth_split_upd {A} i (p x : A) l : nth_error l i = Some p -> exists a b, l = a ++ p :: b /\ upd i x l = a ++ x :: b /\ length a = i.
Proof.
  revert l. induction i as [|i IH]; intros [|y l] H; try discriminate; cbn in H.
  - injection H as ->. exists [], l. auto.
  - destruct (IH l H) as (a & b & E & U & L). exists (y :: a), b. subst l. cbn. unfold upd in *. cbn in *. rewrite U, L. auto.
Qed.
Lemma sum_upd f i p x l : nth_error l i = Some p -> sum f (upd i x l) + f p = sum f l + f x.
Proof. intros H. destruct (nth_split_upd i p x l H) as (a & b & -> & -> & _). rewrite !sum_app. cbn. lia. Qed.
Lemma upd_forall (P : pc -> Prop) i x l : (forall p, In p l -> P p) -> P x -> forall p, In p (upd i x l) -> P p.
Proof.
  intros H Hx p Hp. unfold upd in Hp. apply in_app_or in Hp. destruct Hp as [Hp|[<-|Hp]]; auto.
  - apply H. rewrite <- (firstn_skipn i l). apply in_or_app. auto.
  - apply H. rewrite <- (firstn_skipn (S i) l). apply in_or_app. auto.
Qed.

Definition b2n (b : bool) : nat := if b then 1 else 0.
Definition f_acc (p : pc) : nat := match p with D3 | D4 | D5 | D6 | DAcc => 1 | _ => 0 end.
Definition f_recv (p : pc) : nat := match p with D4 | D5 | D6 | DAcc => 1 | _ => 0 end.
Definition f_dev (p : pc) : nat := match p with D5 | D6 | DAcc => 1 | _ => 0 end.
Definition f_wrote (p : pc) : nat := match p with DAcc => 1 | _ => 0 end.
Definition f_rej (p : pc) : nat := match p with DRej => 1 | _ => 0 end.
Definition a_acc (c : bool) (a : apc) : nat := if c then match a with A0 | A1 => 0 | _ => 1 end else 0.
Definition a_recv (c : bool) (a : apc) : nat := if c then match a with A5 | ADone => 1 | _ => 0 end else 0.
Definition a_wrote (c : bool) (a : apc) : nat := if c then match a with ADone => 1 | _ => 0 end else 0.
Definition started (p : pc) : bool := match p with D0 | E0 | E1 _ | E2 | EDone => false | _ => true end.

Lemma sum_le f g l : (forall p, f p <= g p) -> sum f l <= sum g l.
Proof. intros H. induction l as [|p l IH]; cbn; [lia|]. pose proof (H p). lia. Qed.

(** The bits. *)
Lemma has_with v b c : has (with_bit v b) c = (has v c || (b =? c)%N).
Proof. unfold has, with_bit. rewrite N.lor_spec, N.pow2_bits_eqb. reflexivity. Qed.

Record Inv (c strict : bool) (s : st) : Prop := {
  i_acc : sum f_acc (ths s) + a_acc c (al s) = b2n (has (bits s) DATA_RECEIVED);
  i_recv : recv s = sum f_recv (ths s) + a_recv c (al s);
  i_wrote : wrote s = sum f_wrote (ths s) + a_wrote c (al s);
  i_dev : length (dev s) = sum f_dev (ths s);
  i_cas : forall v, In (D2 v) (ths s) -> has v DATA_RECEIVED = false;
  i_rej : 0 < sum f_rej (ths s) -> has (bits s) DATA_RECEIVED = true;
  i_al : c = false -> al s = A0 \/ al s = ADone;
  i_strict : c = true -> strict = true /\ (al s <> ADone -> forall p, In p (ths s) -> started p = false) }.

Lemma inv_start c strict l : begins l -> (c = true -> strict = true) -> Inv c strict (start l).
Proof.
  intros B Hs. assert (Z : forall f, f D0 = 0 -> f E0 = 0 -> sum f l = 0).
  { intros f F1 F2. induction l as [|p t IH]; [reflexivity|]. cbn.
    rewrite IH by (intros q Hq; apply B; now right). destruct (B p (or_introl eq_refl)) as [->| ->]; lia. }
  constructor; cbn [start ths al bits recv wrote dev freed late]; rewrite ?Z by reflexivity.
  - destruct c; reflexivity.
  - destruct c; reflexivity.
  - destruct c; reflexivity.
  - reflexivity.
  - intros v Hv. destruct (B _ Hv); discriminate.
  - lia.
  - auto.
  - intros E. split; [auto|]. intros _ p Hp. destruct (B p Hp) as [->| ->]; reflexivity.
Qed.

Lemma in_upd_self {A} i (x p : A) l : nth_error l i = Some p -> In x (upd i x l).
Proof. intros H. destruct (nth_split_upd i p x l H) as (a & b & _ & -> & _). apply in_or_app. right. now left. Qed.
Lemma upd_cas i x l : (forall v, In (D2 v) l -> has v DATA_RECEIVED = false) ->
  (forall v, x = D2 v -> has v DATA_RECEIVED = false) -> forall v, In (D2 v) (upd i x l) -> has v DATA_RECEIVED = false.
Proof.
  intros H Hx v Hv. unfold upd in Hv. apply in_app_or in Hv. destruct Hv as [Hv|[Hv|Hv]]; auto.
  - apply H. rewrite <- (firstn_skipn i l). apply in_or_app. auto.
  - apply H. rewrite <- (firstn_skipn (S i) l). apply in_or_app. auto.
Qed.
Lemma upd_started i x p l : nth_error l i = Some p -> started x = started p ->
  (forall q, In q l -> started q = false) -> forall q, In q (upd i x l) -> started q = false.
Proof.
  intros Hn Hx H. apply upd_forall; [exact H|]. rewrite Hx. apply H. exact (nth_error_In _ _ Hn).
Qed.
Lemma upd_strict (al' : apc) i x p l : nth_error l i = Some p ->
  (started x = true -> started p = false -> al' = ADone) ->
  (al' <> ADone -> forall q, In q l -> started q = false) -> al' <> ADone -> forall q, In q (upd i x l) -> started q = false.
Proof.
  intros Hn Hx H Hal. apply upd_forall; [exact (H Hal)|]. destruct (started x) eqn:E; [|reflexivity].
  exfalso. apply Hal. apply Hx; [reflexivity|]. apply (H Hal). exact (nth_error_In _ _ Hn).
Qed.

Ltac sums i p x s Hn :=
  pose proof (sum_upd f_acc i p x (ths s) Hn); pose proof (sum_upd f_recv i p x (ths s) Hn);
  pose proof (sum_upd f_wrote i p x (ths s) Hn); pose proof (sum_upd f_dev i p x (ths s) Hn);
  pose proof (sum_upd f_rej i p x (ths s) Hn).
Ltac tidy := cbn [f_acc f_recv f_wrote f_dev f_rej] in *.

Lemma step_al_ok c strict s : Inv c strict s -> exists s', step_al c s = Some s' /\ Inv c strict s'.
Proof.
  intros I. pose proof I as [I1 I2 I3 I4 I5 I6 I7 I8]. unfold step_al. destruct c.
  - destruct (I8 eq_refl) as [-> I9].
    assert (G : al s <> ADone -> sum f_acc (ths s) = 0 /\ sum f_recv (ths s) = 0 /\ sum f_wrote (ths s) = 0).
    { intros Hal. specialize (I9 Hal). clear - I9. induction (ths s) as [|p t IH]; [auto|]. cbn.
      destruct IH as (? & ? & ?); [intros q Hq; apply I9; now right|]. pose proof (I9 p (or_introl eq_refl)). destruct p; cbn in *; try discriminate; lia. }
    assert (K : forall a b, al s <> ADone -> a_acc true (al s) = a_acc true a -> a_recv true (al s) = a_recv true a -> a_wrote true (al s) = a_wrote true a ->
              (b =? DATA_RECEIVED)%N = false -> Inv true true (set_al a (add_bit b s))).
    { intros a b Hal E1 E2 E3 Eb. constructor; cbn [set_al add_bit set_bits ths al bits recv wrote dev]; rewrite <- ?E1, <- ?E2, <- ?E3; auto.
      - rewrite has_with, Eb, orb_false_r. exact I1.
      - intros H. rewrite has_with, I6 by exact H. reflexivity.
      - discriminate. }
    destruct (al s) eqn:Ea.
    + eexists. split; [reflexivity|]. apply K; try reflexivity; discriminate.
    + destruct G as (G1 & G2 & G3); [discriminate|]. eexists. split; [reflexivity|].
      constructor; cbn [set_al add_bit set_bits ths al bits recv wrote dev a_acc a_recv a_wrote] in *; auto.
      * rewrite has_with. cbn. rewrite orb_true_r. cbn. lia.
      * intros H. rewrite has_with. cbn. apply orb_true_r.
      * discriminate.
      * intros _. split; auto. intros _. apply I9. discriminate.
    + eexists. split; [reflexivity|]. apply K; try reflexivity; discriminate.
    + eexists. split; [reflexivity|]. apply K; try reflexivity; discriminate.
    + destruct G as (G1 & G2 & G3); [discriminate|]. unfold set_recv. cbn [a_acc a_recv a_wrote] in *. rewrite I2, G2. cbn [Nat.add option_map]. eexists. split; [reflexivity|].
      constructor; cbn [set_al ths al bits recv wrote dev a_acc a_recv a_wrote] in *; auto.
      * lia.
      * discriminate.
      * intros _. split; auto. intros _. apply I9. discriminate.
    + destruct G as (G1 & G2 & G3); [discriminate|]. unfold set_wrote. cbn [a_acc a_recv a_wrote] in *. rewrite I3, G3. cbn [Nat.add option_map]. eexists. split; [reflexivity|].
      constructor; cbn [set_al ths al bits recv wrote dev a_acc a_recv a_wrote] in *; auto.
      * lia.
    + exists s. split; [reflexivity|exact I].
  - destruct (I7 eq_refl) as [Ea|Ea]; rewrite Ea; [|exists s; auto]. cbn [a_acc a_recv a_wrote] in *.
    eexists. split; [reflexivity|]. constructor; cbn [set_al add_bit set_bits ths al bits recv wrote dev a_acc a_recv a_wrote]; auto.
    + rewrite has_with. cbn. rewrite orb_false_r. exact I1.
    + intros H. rewrite has_with, I6 by exact H. reflexivity.
    + discriminate.
Qed.

Lemma step_th_ok c strict s i weak : Inv c strict s -> exists s', step_th strict s i weak = Some s' /\ Inv c strict s'.
Proof.
  intros I. pose proof I as [I1 I2 I3 I4 I5 I6 I7 I8]. unfold step_th. destruct (nth_error (ths s) i) as [p|] eqn:Hn; [|eauto].
  assert (Hin : In p (ths s)) by exact (nth_error_In _ _ Hn).
  assert (A1 : sum f_acc (ths s) + a_acc c (al s) <= 1) by (rewrite I1; destruct (has _ _); cbn; lia).
  assert (Hle : sum f_recv (ths s) <= sum f_acc (ths s)) by (apply sum_le; intros []; cbn; lia).
  assert (Hle2 : sum f_wrote (ths s) <= sum f_recv (ths s)) by (apply sum_le; intros []; cbn; lia).
  assert (Ale : a_recv c (al s) <= a_acc c (al s)) by (destruct c, (al s); cbn; lia).
  assert (Ale2 : a_wrote c (al s) <= a_recv c (al s)) by (destruct c, (al s); cbn; lia).
  assert (Hst : started p = true -> c = true -> al s = ADone).
  { intros Hp Hc. destruct (I8 Hc) as [_ I9]. destruct (al s) eqn:Ea; auto; exfalso; rewrite I9 in Hp; auto; discriminate. }
  (* a step that changes neither bit DATA_RECEIVED nor any count *)
  assert (K : forall x s1, ths s1 = ths s -> al s1 = al s -> recv s1 = recv s -> wrote s1 = wrote s -> dev s1 = dev s ->
      has (bits s1) DATA_RECEIVED = has (bits s) DATA_RECEIVED ->
      f_acc x = f_acc p -> f_recv x = f_recv p -> f_wrote x = f_wrote p -> f_dev x = f_dev p ->
      (f_rej x = f_rej p \/ has (bits s) DATA_RECEIVED = true) ->
      (forall v, x = D2 v -> has v DATA_RECEIVED = false) ->
      (started x = true -> started p = false -> c = true -> al s = ADone) -> Inv c strict (set_th i x s1)).
  { intros x s1 E1 E2 E3 E4 E5 E6 F1 F2 F3 F4 F5 F6 F7. sums i p x s Hn.
    constructor; cbn [set_th ths al bits recv wrote dev]; rewrite ?E1, ?E2, ?E3, ?E4, ?E5, ?E6; auto; try lia.
    - apply upd_cas; auto.
    - intros H5. destruct F5 as [F5|F5]; [apply I6; lia|exact F5].
    - intros Hc. destruct (I8 Hc) as [Es I9]. split; auto. apply (upd_strict (al s) i x p); auto. }
  assert (KD : forall x, f_acc p = 0 -> f_recv p = 0 -> f_wrote p = 0 -> f_dev p = 0 -> f_rej p = 0 -> started p = true ->
     x = (if has (bits s) DATA_RECEIVED then DRej else D2 (bits s)) -> Inv c strict (set_th i x s)).
  { intros x P1 P2 P3 P4 P5 P6 ->. destruct (has (bits s) DATA_RECEIVED) eqn:Eb.
    - apply K; auto. discriminate.
    - apply K; auto. intros v [= <-]. exact Eb. }
  assert (KE : forall x, f_acc p = 0 -> f_recv p = 0 -> f_wrote p = 0 -> f_dev p = 0 -> f_rej p = 0 -> started p = false ->
     x = (if has (bits s) ERRORED then EDone else E1 (bits s)) -> Inv c strict (set_th i x s)).
  { intros x P1 P2 P3 P4 P5 P6 ->. destruct (has (bits s) ERRORED) eqn:Eb; (apply K; auto; discriminate). }
  destruct p.
  - (* D0 *)
    destruct (if strict then _ else _) eqn:G; [|eauto]. eexists. split; [reflexivity|]. apply K; auto; try discriminate.
    intros _ _ Hc. destruct (I8 Hc) as [-> I9]. destruct (al s); auto; discriminate.
  - eexists. split; [reflexivity|]. apply KD; reflexivity.
  - (* D2 *)
    destruct (negb weak && (bits s =? v)%N) eqn:G; [|eexists; split; [reflexivity|]; apply KD; reflexivity].
    apply andb_prop in G. destruct G as [_ G]. apply N.eqb_eq in G. pose proof (I5 v Hin) as Hv. rewrite <- G in Hv.
    eexists. split; [reflexivity|]. sums i (D2 v) D3 s Hn. tidy. rewrite Hv in I1. cbn [b2n] in I1.
    constructor; cbn [set_th add_bit set_bits ths al bits recv wrote dev]; auto; try lia.
    + rewrite has_with. cbn. rewrite orb_true_r. cbn. lia.
    + apply upd_cas; auto. discriminate.
    + intros _. rewrite has_with. cbn. apply orb_true_r.
    + intros Hc. destruct (I8 Hc) as [Es I9]. split; auto. apply (upd_strict (al s) i D3 (D2 v)); auto.
  - (* D3 *)
    sums i D3 D4 s Hn. tidy. assert (Z : recv s = 0).
    { rewrite I2. assert (B : forall q l, nth_error l i = Some q -> q = D3 -> 1 + sum f_recv l <= sum f_acc l).
      { clear. intros q l. revert i. induction l as [|x l IH]; intros [|i] H ->; cbn in H; try discriminate.
        - injection H as ->. cbn. assert (sum f_recv l <= sum f_acc l) by (apply sum_le; intros []; cbn; lia). lia.
        - specialize (IH i H eq_refl). cbn. destruct x; cbn; lia. }
      specialize (B _ _ Hn eq_refl). lia. }
    unfold set_recv. rewrite Z. cbn [option_map]. eexists. split; [reflexivity|].
    constructor; cbn [set_th ths al bits recv wrote dev]; auto; try lia.
    + apply upd_cas; auto. discriminate.
    + intros H5. apply I6. lia.
    + intros Hc. destruct (I8 Hc) as [Es I9]. split; auto. apply (upd_strict (al s) i D4 D3); auto.
  - (* D4 *)
    sums i D4 D5 s Hn. tidy. eexists. split; [reflexivity|].
    constructor; cbn [set_th ths al bits recv wrote dev length]; auto; try lia.
    + apply upd_cas; auto. discriminate.
    + intros H5. apply I6. lia.
    + intros Hc. destruct (I8 Hc) as [Es I9]. split; auto. apply (upd_strict (al s) i D5 D4); auto.
  - (* D5 *)
    eexists. split; [reflexivity|]. apply K; auto; try discriminate. cbn. rewrite has_with. cbn. apply orb_false_r.
  - (* D6 *)
    sums i D6 DAcc s Hn. tidy. assert (Z : wrote s = 0).
    { rewrite I3. assert (B : forall q l, nth_error l i = Some q -> q = D6 -> 1 + sum f_wrote l <= sum f_acc l).
      { clear. intros q l. revert i. induction l as [|x l IH]; intros [|i] H ->; cbn in H; try discriminate.
        - injection H as ->. cbn. assert (sum f_wrote l <= sum f_acc l) by (apply sum_le; intros []; cbn; lia). lia.
        - specialize (IH i H eq_refl). cbn. destruct x; cbn; lia. }
      specialize (B _ _ Hn eq_refl). lia. }
    unfold set_wrote. rewrite Z. cbn [option_map]. eexists. split; [reflexivity|].
    constructor; cbn [set_th ths al bits recv wrote dev]; auto; try lia.
    + apply upd_cas; auto. discriminate.
    + intros H5. apply I6. lia.
    + intros Hc. destruct (I8 Hc) as [Es I9]. split; auto. apply (upd_strict (al s) i DAcc D6); auto.
  - eauto.
  - eauto.
  - eexists. split; [reflexivity|]. apply KE; reflexivity.
  - destruct (negb weak && (bits s =? v)%N); eexists; (split; [reflexivity|]); [|apply KE; reflexivity].
    apply K; auto; try discriminate. cbn. rewrite has_with. cbn. apply orb_false_r.
  - eexists. split; [reflexivity|]. destruct (has (bits s) BLK_ALLOCATED); apply K; auto; discriminate.
  - eauto.
Qed.

Lemma run_ok c strict l : forall s, Inv c strict s -> exists s', run c strict s l = Some s' /\ Inv c strict s'.
Proof.
  induction l as [|[i w] l IH]; intros s I; cbn [run]; [eauto|]. unfold step; cbn [fst snd].
  destruct i as [|i].
  - destruct (step_al_ok c strict s I) as (s1 & -> & I1). apply IH. exact I1.
  - destruct (step_th_ok c strict s i w I) as (s1 & -> & I1). apply IH. exact I1.
Qed.

Lemma accepted_sum l : accepted l = sum f_wrote l.
Proof. unfold accepted. induction l as [|p t IH]; [reflexivity|]. destruct p; cbn in *; lia. Qed.
(** Deliveries stay deliveries. *)
Definition kind (p : pc) : bool := match p with E0 | E1 _ | E2 | EDone => false | _ => true end.
Lemma upd_kind i x p l : nth_error l i = Some p -> kind x = kind p -> map kind (upd i x l) = map kind l.
Proof. intros H K. destruct (nth_split_upd i p x l H) as (a & b & -> & -> & _). rewrite !map_app. cbn. now rewrite K. Qed.
Lemma step_kind c strict s e s' : step c strict s e = Some s' -> map kind (ths s') = map kind (ths s).
Proof.
  unfold step. destruct (fst e) as [|i].
  - unfold step_al. destruct (al s); intros H; try (injection H as <-; reflexivity).
    + unfold set_recv in H. destruct (recv s); [|discriminate]. injection H as <-. reflexivity.
    + unfold set_wrote in H. destruct (wrote s); [|discriminate]. injection H as <-. reflexivity.
  - unfold step_th. destruct (nth_error (ths s) i) as [p|] eqn:Hn; [|intros [= <-]; reflexivity].
    destruct p; intros H; try (injection H as <-; reflexivity).
    + destruct (if strict then _ else _); injection H as <-; [|reflexivity]. apply (upd_kind i _ _ _ Hn); reflexivity.
    + injection H as <-. apply (upd_kind i _ _ _ Hn). destruct (has _ _); reflexivity.
    + destruct (negb _ && _); injection H as <-; apply (upd_kind i _ _ _ Hn); [reflexivity|]. destruct (has _ _); reflexivity.
    + unfold set_recv in H. destruct (recv s); [|discriminate]. injection H as <-. apply (upd_kind i _ _ _ Hn); reflexivity.
    + injection H as <-. apply (upd_kind i _ _ _ Hn); reflexivity.
    + injection H as <-. apply (upd_kind i _ _ _ Hn); reflexivity.
    + unfold set_wrote in H. destruct (wrote s); [|discriminate]. injection H as <-. apply (upd_kind i _ _ _ Hn); reflexivity.
    + injection H as <-. apply (upd_kind i _ _ _ Hn). destruct (has _ _); reflexivity.
    + destruct (negb _ && _); injection H as <-; apply (upd_kind i _ _ _ Hn); [reflexivity|]. destruct (has _ _); reflexivity.
    + injection H as <-. destruct (has _ _); apply (upd_kind i _ _ _ Hn); reflexivity.
Qed.
Lemma run_kind c strict l : forall s s', run c strict s l = Some s' -> map kind (ths s') = map kind (ths s).
Proof.
  induction l as [|e l IH]; intros s s' H; cbn [run] in H; [injection H as <-; reflexivity|].
  destruct (step c strict s e) as [s1|] eqn:E; [|discriminate]. rewrite (IH _ _ H). exact (step_kind c strict s e s1 E).
Qed.

Lemma once_of_inv l s sched : begins l -> run false false (start l) sched = Some s -> Inv false false s ->
  accepted (ths s) <= 1 /\ recv s <= 1 /\ wrote s <= 1 /\ length (dev s) <= 1 /\
  (finished (ths s) -> deliveries l -> accepted (ths s) = 1 /\ recv s = 1 /\ wrote s = 1 /\ length (dev s) = 1).
Proof.
  intros B E [I1 I2 I3 I4 I5 I6 I7 I8]. rewrite accepted_sum. cbn [a_acc a_recv a_wrote] in *.
  assert (A1 : sum f_acc (ths s) <= 1) by (destruct (has _ _); cbn in I1; lia).
  assert (sum f_recv (ths s) <= sum f_acc (ths s)) by (apply sum_le; intros []; cbn; lia).
  assert (sum f_wrote (ths s) <= sum f_recv (ths s)) by (apply sum_le; intros []; cbn; lia).
  assert (sum f_dev (ths s) <= sum f_recv (ths s)) by (apply sum_le; intros []; cbn; lia).
  ands; try lia. intros F Hd.
  assert (Eq : sum f_acc (ths s) = sum f_wrote (ths s) /\ sum f_recv (ths s) = sum f_wrote (ths s) /\ sum f_dev (ths s) = sum f_wrote (ths s)).
  { clear - F. induction (ths s) as [|p t IH]; [auto|]. cbn. destruct IH as (-> & -> & ->); [intros q Hq; apply F; now right|].
    destruct (F p (or_introl eq_refl)) as [->|[->| ->]]; cbn; lia. }
  assert (D : exists p, In p (ths s) /\ kind p = true).
  { assert (M : In true (map kind (ths s))).
    { rewrite (run_kind _ _ _ _ _ E). apply in_map_iff. exists D0. auto. }
    apply in_map_iff in M. destruct M as (p & K & M). eauto. }
  destruct D as (p & Hp & K). destruct (F p Hp) as [->|[->| ->]]; [| |discriminate].
  - assert (1 <= sum f_wrote (ths s)).
    { clear - Hp. induction (ths s) as [|q t IH]; [destruct Hp|]. cbn. destruct Hp as [->|Hp]; [cbn; lia|]. specialize (IH Hp). lia. }
    lia.
  - assert (0 < sum f_rej (ths s)).
    { clear - Hp. induction (ths s) as [|q t IH]; [destruct Hp|]. cbn. destruct Hp as [->|Hp]; [cbn; lia|]. specialize (IH Hp). lia. }
    rewrite I6 in I1 by lia. cbn in I1. lia.
Qed.
Lemma none_of_inv s : Inv true true s -> accepted (ths s) = 0 /\ dev s = [] /\ recv s <= 1 /\ wrote s <= 1.
Proof.
  intros [I1 I2 I3 I4 I5 I6 I7 I8]. rewrite accepted_sum.
  assert (sum f_recv (ths s) <= sum f_acc (ths s)) by (apply sum_le; intros []; cbn; lia).
  assert (sum f_wrote (ths s) <= sum f_recv (ths s)) by (apply sum_le; intros []; cbn; lia).
  assert (sum f_dev (ths s) <= sum f_recv (ths s)) by (apply sum_le; intros []; cbn; lia).
  assert (Z : sum f_acc (ths s) = 0).
  { destruct (I8 eq_refl) as [_ I9]. destruct (al s) eqn:Ea.
    7:{ cbn in I1. destruct (has _ _); cbn in I1; lia. }
    all: assert (I9' : forall p, In p (ths s) -> started p = false) by (apply I9; discriminate); clear - I9';
      induction (ths s) as [|p t IH]; [reflexivity|]; cbn; rewrite IH by (intros q Hq; apply I9'; now right);
      pose proof (I9' p (or_introl eq_refl)); destruct p; cbn in *; try discriminate; reflexivity. }
  assert (a_recv true (al s) <= 1 /\ a_wrote true (al s) <= 1) by (destruct (al s); cbn; lia).
  assert (length (dev s) = 0) by lia. ands; try lia. now destruct (dev s).
Qed.
