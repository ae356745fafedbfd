From Coq Require Import ZArith List Bool Lia.
From Verif Require Import Base ReplayModel ReplaySpec.
Import ListNotations.
Open Scope Z_scope.

Lemma range_in n : forall from l, In l (range from n) <-> from <= l < from + Z.of_nat n.
Proof.
  induction n as [|n IH]; intros from l; cbn [range].
  - split; [intros []|lia].
  - cbn [In]. rewrite IH. lia.
Qed.
Lemma between_in a b l : In l (between a b) <-> a < l <= b.
Proof. unfold between. rewrite range_in. lia. Qed.

(** ** Raft *)
(** What the snapshot under way will bring. *)
Definition cov (s : st) (l : Z) : Prop := match rcv s with Some i => l <= i | None => False end.
Record RInv (s : st) : Prop := {
  ri_nxt : commit s < nxt s;
  ri_rcv : forall j, rcv s = Some j -> snap s = j /\ commit s <= j /\ (mid s = true -> nxt s <= j);
  ri_1 : rph s = 1%nat -> forall l, 1 <= l <= snap s -> In l (cur s);
  ri_2 : rph s = 2%nat -> forall l, 1 <= l <= snap s -> In l (dur s) \/ In l (old s);
  ri_3 : rph s = 3%nat -> forall l, 1 <= l <= snap s -> In l (dur s);
  ri_4 : rph s = 4%nat -> rcv s = None /\ commit s <= snap s /\ snap s <= log s /\ mid s = false;
  ri_5 : rph s <> 0%nat -> rph s <> 4%nat -> rcv s = Some (snap s) /\ snap s <= lim s;
  ri_6 : rcv s <> None -> forall l, 1 <= l < nxt s -> In l (dur s) \/ l <= snap s;
  ri_snap : forall l, 1 <= l <= snap s -> In l (dur s) \/ cov s l;
  ri_com : forall l, 1 <= l < nxt s -> present s l \/ cov s l;
  ri_mid : mid s = true -> (present s (nxt s) \/ cov s (nxt s)) /\ nxt s <= log s;
  ri_ck : forall l, 1 <= l <= ck s -> In l (dur s) \/ cov s l;
  ri_tr : forall l, 1 <= l <= tr s -> In l (dur s) \/ cov s l;
  ri_lim : rph s <> 0%nat \/ rcv s = None -> forall l, 1 <= l <= lim s -> In l (dur s) \/ cov s l;
  ri_ph : forall c f x, ph s = Some (c, f, x) ->
          (forall l, 1 <= l <= c -> In l (dur s) \/ In l (old s) \/ cov s l) /\ (f = true -> old s = []) /\ c <= commit s;
  ri_idle : ph s = None -> old s = [];
  ri_log : commit s <= log s;
  ri_dc : dc s <= commit s;
  ri_ld : forall l, ld s = Some l -> l <= commit s }.

Lemma rinv_init : RInv (init Raft).
Proof. constructor; cbn; intros; try discriminate; try lia; auto. Qed.

Ltac inv H := inversion H; subst; clear H.
Lemma gt_filter i l x : In l (filter (Z.ltb i) x) <-> In l x /\ i < l.
Proof. rewrite filter_In. intuition lia. Qed.
Lemma rinv_step s e s' : RInv s -> onward s e -> step Raft s e = Next s' -> RInv s'.
Proof.
  intros I A E. destruct I as [Ix Ir I1 I2 I3 I4 I5 I6 Is Ic Im Ik It Ilm Ip Io Il Id Ild]. destruct e; cbn [step] in E.
  - inv E. constructor; unfold cov, present in *; cbn; auto.
    + intros R. destruct (I4 R) as (P1 & P2 & P3 & P4). ands; auto. lia.
    + intros M. destruct (Im M). split; [auto|lia].
    + lia.
  - destruct (mid s) eqn:Em; [discriminate|]. cbn [orb] in E. destruct (Z.ltb_spec (log s) (nxt s)) as [H|H]; [discriminate|].
    destruct (Nat.eqb_spec (rph s) 4) as [R4|R4]; [discriminate|].
    destruct (Z.leb_spec (nxt s) (snap s)) as [H0|H0].
    { inv E. constructor; unfold cov, present in *; cbn; auto; try discriminate.
      - lia.
      - intros j Hj. destruct (Ir j Hj) as (P1 & P2 & P3). ands; auto. discriminate.
      - intros R l Hl. destruct (Z.eq_dec l (nxt s)) as [->|Hne]; [right; exact H0|apply I6; auto; lia].
      - intros l Hl. destruct (Z.eq_dec l (nxt s)) as [->|Hne]; [|apply Ic; lia]. destruct (Is (nxt s) ltac:(lia)); auto. }
    destruct (rcv s) as [j|] eqn:Ej; [discriminate|]. cbn [is_some] in E.
    destruct (Z.leb_spec (nxt s) (base s)) as [H1|H1]; [discriminate|]. inv E.
    constructor; unfold cov, present in *; cbn; rewrite ?Ej in *; auto; try discriminate; try congruence.
    + intros R l Hl. apply in_or_app. left. auto.
    + intros l Hl. destruct (Ic l Hl) as [[P|[P|P]]|[]]; auto. left. right. right. apply in_or_app. auto.
    + intros _. split; [|lia]. left. right. right. apply in_or_app. right. now left.
  - destruct (mid s) eqn:Em; [|discriminate]. inv E. destruct (Im eq_refl) as [Pn Ln].
    constructor; unfold cov, present in *; cbn; auto; try discriminate.
    + lia.
    + intros j Hj. destruct (Ir j Hj) as (P1 & P2 & P3). ands; auto; discriminate.
    + intros R. destruct (I4 R) as (_ & _ & _ & P). discriminate.
    + intros R l Hl. destruct (rcv s) as [j|]; [|congruence]. destruct (Ir j eq_refl) as (P1 & P2 & P3). specialize (P3 eq_refl). right. lia.
    + intros l Hl. destruct (Z.eq_dec l (nxt s)) as [->|Hne]; [exact Pn|apply Ic; lia].
    + intros c f x Ep. destruct (Ip c f x Ep) as (P1 & P2 & P3). ands; auto; lia.
    + lia.
    + intros l El. specialize (Ild l El). lia.
  - destruct (ph s) eqn:Ep; [discriminate|]. inv E. specialize (Io eq_refl).
    constructor; unfold cov, present in *; cbn; auto; rewrite ?Io in *; try discriminate.
    + intros R. destruct (Nat.eqb_spec (rph s) 1) as [H1|H1]; [discriminate|contradiction].
    + intros R l Hl. destruct (Nat.eqb_spec (rph s) 1) as [H1|H1]; [right; apply I1; auto|]. destruct (I2 R l Hl) as [P|[]]; auto.
    + intros R. destruct (Nat.eqb_spec (rph s) 1); [discriminate|auto].
    + intros R. destruct (Nat.eqb_spec (rph s) 1); [discriminate|auto].
    + intros R0 R. destruct (Nat.eqb_spec (rph s) 1) as [H1|H1]; apply I5; rewrite ?H1; auto.
    + intros l Hl. destruct (Ic l Hl) as [[P|[[]|P]]|P]; auto.
    + intros M. destruct (Im M) as [[[P|[[]|P]]|P] L]; auto.
    + intros R. apply Ilm. destruct (Nat.eqb_spec (rph s) 1) as [H1|H1]; [left; rewrite H1; discriminate|exact R].
    + intros c f x Ex. inv Ex. ands; [|discriminate|lia]. intros l Hl.
      destruct (Ic l ltac:(lia)) as [[P|[[]|P]]|P]; auto.
  - destruct (ph s) as [[[c [|]] x]|] eqn:Ep; try discriminate. inv E. destruct (Ip _ _ _ eq_refl) as (P1 & P2 & P3).
    assert (L : forall l, In l (dur s) -> In l (dur s ++ old s)) by (intros; apply in_or_app; auto).
    assert (R : forall l, In l (old s) -> In l (dur s ++ old s)) by (intros; apply in_or_app; auto).
    constructor; unfold cov, present in *; cbn; auto; try discriminate.
    + intros H l Hl. destruct (I2 H l Hl); auto.
    + intros H l Hl. destruct (I6 H l Hl); auto.
    + intros l Hl. destruct (Is l Hl); auto.
    + intros l Hl. destruct (Ic l Hl) as [[P|[P|P]]|P]; auto.
    + intros M. destruct (Im M) as [[[P|[P|P]]|P] Ln]; auto.
    + intros l Hl. destruct (Ik l Hl); auto.
    + intros l Hl. destruct (It l Hl); auto.
    + intros H l Hl. destruct (Ilm H l Hl); auto.
    + intros c' f x' Ex. inv Ex. ands; auto. intros l Hl. destruct (P1 l Hl) as [P|[P|P]]; auto.
  - destruct (ph s) as [[[c [|]] [|]]|] eqn:Ep; try discriminate. inv E. destruct (Ip _ _ _ eq_refl) as (P1 & P2 & P3).
    specialize (P2 eq_refl). constructor; unfold cov, present in *; cbn; auto; try discriminate.
    + intros l Hl. destruct (P1 l Hl) as [P|[P|P]]; auto. rewrite P2 in P. destruct P.
    + intros c' f x' Ex. inv Ex. ands; auto.
    + lia.
  - destruct (ph s) as [[[c [|]] [|]]|] eqn:Ep; try discriminate. inv E. destruct (Ip _ _ _ eq_refl) as (P1 & P2 & P3).
    specialize (P2 eq_refl). constructor; unfold cov, present in *; cbn; auto; try discriminate.
    + intros R. destruct (Nat.eqb_spec (rph s) 2); [discriminate|auto].
    + intros R. destruct (Nat.eqb_spec (rph s) 2); [discriminate|contradiction].
    + intros R l Hl. destruct (Nat.eqb_spec (rph s) 2) as [H|H]; [|auto]. destruct (I2 H l Hl) as [P|P]; auto. rewrite P2 in P. destruct P.
    + intros R. destruct (Nat.eqb_spec (rph s) 2); [discriminate|auto].
    + intros R0 R. destruct (Nat.eqb_spec (rph s) 2) as [H1|H1]; apply I5; rewrite ?H1; auto.
    + intros R. apply Ilm. destruct (Nat.eqb_spec (rph s) 2) as [H1|H1]; [left; rewrite H1; discriminate|exact R].
  - destruct (ld s) eqn:El; [discriminate|]. inv E. constructor; unfold cov, present in *; cbn; auto.
    intros l Ex. inv Ex. lia.
  - destruct (ld s) eqn:El; [|discriminate]. inv E. specialize (Ild _ eq_refl). constructor; unfold cov, present in *; cbn; auto. discriminate.
  - inv E. constructor; unfold cov, present in *; cbn; auto.
    + intros R0 R. destruct (I5 R0 R) as [P1 P2]. split; auto. destruct (Z.leb_spec (Z.min upto (ck s)) (lim s)); lia.
    + intros R l Hl. destruct (Z.leb_spec (Z.min upto (ck s)) (lim s)); [apply Ilm; auto|apply Ik; lia].
  - destruct (Nat.eqb_spec (rph s) 4) as [R4|R4]; [discriminate|]. cbn [orb] in E.
    destruct (is_some (rcv s) && (nxt s <=? upto)) eqn:C; [discriminate|]. inv E. constructor; unfold cov, present in *; cbn; auto.
    intros l Hl. destruct (Z.leb_spec (Z.min upto (lim s)) (tr s)); [apply It; auto|]. destruct (rcv s) as [j|] eqn:Ej.
    + cbn [is_some andb] in C. destruct (Ir j eq_refl) as (P1 & _). rewrite <- P1. apply I6; [discriminate|lia].
    + apply Ilm; auto. lia.
  - cbn [onward] in A. destruct (Z.leb_spec (nxt s) i) as [H|H]; [|discriminate]. cbn [andb] in E. destruct (Nat.eqb_spec (rph s) 4) as [R4|R4]; [discriminate|]. inv E.
    constructor; unfold cov, present in *; cbn; auto; try discriminate; try congruence; try (intros; right; lia).
    + intros j Hj. inv Hj. ands; auto; lia.
    + intros M. destruct (Im M). split; [right; lia|auto].
    + intros l Hl. destruct (Z_le_gt_dec l i) as [L|L]; [auto|]. left. apply gt_filter. split; [|lia].
      destruct (Ik l Hl) as [P|P]; auto. destruct (rcv s) as [j|]; [|destruct P]. destruct (Ir j eq_refl) as (P1 & P2 & P3). lia.
    + intros l Hl. destruct (Z_le_gt_dec l i) as [L|L]; [auto|]. left. apply gt_filter. split; [|lia].
      destruct (It l Hl) as [P|P]; auto. destruct (rcv s) as [j|]; [|destruct P]. destruct (Ir j eq_refl) as (P1 & P2 & P3). lia.
    + intros [X|X]; congruence.
    + intros c f x Ep. destruct (Ip c f x Ep) as (P1 & P2 & P3). ands; auto; [intros; right; right; lia|].
      intros F. now rewrite (P2 F).
    + intros Ep. now rewrite (Io Ep).
  - destruct (rcv s) as [j|] eqn:Ej; [|discriminate]. inv E. destruct (Ir j eq_refl) as (P1 & P2 & P3).
    constructor; unfold cov, present in *; cbn; rewrite ?Ej in *; auto; try discriminate; try congruence.
    + intros _ l Hl. apply in_or_app. right. apply between_in. lia.
    + intros _ _. split; [congruence|lia].
    + intros l Hl. destruct (Ic l Hl) as [[P|[P|P]]|P]; auto. left. right. right. apply in_or_app. auto.
    + intros M. destruct (Im M) as [[[P|[P|P]]|P] Ln]; auto using in_or_app.
    + intros _ l Hl. right. lia.
  - destruct (rcv s) as [j|] eqn:Ej; [|discriminate]. destruct (Ir j eq_refl) as (P1 & P2 & P3).
    destruct (Nat.eqb_spec (rph s) 3) as [H3|H3]; [|discriminate]. destruct (mid s) eqn:Em; [discriminate|]. inv E.
    specialize (I3 H3). destruct (I5 ltac:(lia) ltac:(lia)) as [_ I5'].
    assert (D : forall l, 1 <= l -> In l (dur s) \/ l <= snap s -> In l (dur s)).
    { intros l H [P|P]; [exact P|]. apply I3. lia. }
    constructor; unfold cov, present in *; cbn; rewrite ?Ej in *; auto; try discriminate; try congruence.
    + intros _. ands; auto. lia.
    + intros l Hl. destruct (Ic l Hl) as [[P|[P|P]]|P]; auto. left. left. apply I3. lia.
    + intros l Hl. left. apply D; [lia|]. auto.
    + intros l Hl. left. destruct (Z.leb_spec (Z.min (snap s) (lim s)) (tr s)); [apply D; [lia|apply It; auto]|apply I3; lia].
    + intros _ l Hl. left. apply D; [lia|]. apply Ilm; auto. left. lia.
    + intros c f x Ep. destruct (Ip c f x Ep) as (Q1 & Q2 & Q3). ands; auto. intros l Hl. destruct (Q1 l Hl) as [Q|[Q|Q]]; auto.
      left. apply I3. lia.
    + lia.
  - destruct (Nat.eqb_spec (rph s) 4) as [R4|R4]; [|discriminate]. inv E. destruct (I4 R4) as (P1 & P2 & P3 & P4).
    constructor; unfold cov, present in *; cbn; rewrite ?P1, ?P4 in *; auto; try discriminate; try congruence; try lia.
    + intros l Hl. destruct (Is l ltac:(lia)); auto.
    + intros c f x Ep. destruct (Ip c f x Ep) as (Q1 & Q2 & Q3). ands; auto. lia.
  - inv E. constructor; unfold cov, present in *; cbn; auto; try discriminate; try congruence.
    + lia.
    + intros j Hj. destruct (Ir j Hj) as (P1 & P2 & P3). ands; auto; [lia|discriminate].
    + intros R l Hl. destruct (rcv s) as [j|] eqn:Ej; [|congruence]. destruct (Ir j eq_refl) as (P1 & P2 & P3).
      destruct (Z_le_gt_dec l (dc s)); [right; lia|]. rewrite P1. apply It. lia.
    + intros l Hl. destruct (Z_le_gt_dec l (ck s)) as [H1|H1]; [destruct (Ik l ltac:(lia)); auto|].
      destruct (Z_le_gt_dec l (tr s)) as [H2|H2]; [destruct (It l ltac:(lia)); auto|].
      destruct (Z_le_gt_dec l (snap s)) as [H3|H3]; [destruct (Is l ltac:(lia)); auto|].
      left. right. right. apply between_in. lia.
    + intros _ l Hl. lia.
    + lia.
    + lia.
Qed.
Lemma rinv_any s : reach Raft onward s -> RInv s.
Proof. induction 1 as [|s e s' R IH A E]; [exact rinv_init|exact (rinv_step s e s' IH A E)]. Qed.
Lemma reach_onward k s : reach k free s -> reach k onward s.
Proof.
  induction 1 as [|s e s' R IH H E]; [constructor|]. apply (reach_step k onward s e s' IH); [|exact E].
  destruct e; try exact Logic.I. destruct H.
Qed.
Lemma rinv_reach s : reach Raft free s -> RInv s.
Proof. intros R. exact (rinv_any s (reach_onward _ _ R)). Qed.
Lemma free_rcv s : reach Raft free s -> rcv s = None /\ rph s = 0%nat.
Proof.
  induction 1 as [|s e s' R [IH1 IH2] A E]; [split; reflexivity|].
  destruct e; cbn [step] in E; rewrite ?IH1, ?IH2 in E; cbn [is_some Nat.eqb orb andb] in E; try discriminate.
  12: destruct A.
  all: repeat match type of E with
       | (if ?b then _ else _) = _ => destruct b; try discriminate
       | (match ?o with _ => _ end) = _ => destruct o; try discriminate
       end; inv E; cbn; auto.
Qed.

Lemma resync_replay s s' l : reach Raft onward s -> step Raft s Reboot = Next s' -> 1 <= l <= log s ->
  present s' l \/ pending s' l \/ cov s' l.
Proof.
  intros R E Hl. pose proof (rinv_any s R) as I. pose proof (rinv_step s Reboot s' I Logic.I E) as I'.
  destruct (Z_lt_ge_dec l (nxt s')) as [H|H]; [destruct (ri_com _ I' l ltac:(lia)); auto|].
  destruct (Z_le_gt_dec l (tr s')) as [H'|H'].
  - destruct (ri_tr _ I' l ltac:(lia)); auto. left. left. auto.
  - right. left. cbn [step] in E. inv E. unfold pending. cbn in *. lia.
Qed.
Lemma raft_replay s s' l : reach Raft free s -> step Raft s Reboot = Next s' -> 1 <= l <= log s ->
  present s' l \/ pending s' l.
Proof.
  intros R E Hl. destruct (resync_replay s s' l (reach_onward _ _ R) E Hl) as [H|[H|H]]; auto.
  destruct (free_rcv s' (reach_step _ _ s Reboot s' R Logic.I E)) as [Er _]. unfold cov in H. rewrite Er in H. destruct H.
Qed.

(** ** The position saved while a checkpoint is sealed *)
Record DInv (s : st) : Prop := {
  di_nxt : commit s < nxt s;
  di_rcv : forall j, rcv s = Some j -> snap s = j /\ nxt s <= j + 1 /\ (mid s = true -> nxt s <= j);
  di_r4 : rph s = 4%nat -> rcv s = None /\ mid s = false /\ lim s = snap s /\ tr s = snap s /\ nxt s <= snap s + 1;
  di_r3 : rph s <> 0%nat -> rph s <> 4%nat -> rcv s = Some (lim s);
  di_tr : rph s <> 4%nat -> tr s < nxt s;
  di_lim : rph s <> 4%nat -> rcv s = None -> lim s < nxt s;
  di_dc : ck s <= dc s;
  di_ck : ck s <= commit s;
  di_c : forall c f x, ph s = Some (c, f, x) -> ck s <= c <= commit s;
  di_l : forall l, ld s = Some l -> ck s <= l <= commit s;
  di_base : base s <= commit s;
  di_com : dc s <= commit s;
  di_pos : 0 <= tr s }.
Lemma dinv_step s e s' : DInv s -> calm s e -> step Raft s e = Next s' -> DInv s'.
Proof.
  intros [D1 Dr R4 R3 Dt Dl D2 D3 D4 D5 D6 D7 D8] A E. destruct e; cbn [step] in E; cbn [calm] in A.
  - inv E. constructor; cbn; auto.
  - destruct (mid s) eqn:Em; [discriminate|]. cbn [orb] in E. destruct (Z.ltb_spec (log s) (nxt s)); [discriminate|].
    destruct (Nat.eqb_spec (rph s) 4) as [H4|H4]; [discriminate|].
    destruct (Z.leb_spec (nxt s) (snap s)).
    { inv E. constructor; cbn; auto.
      all: try lia. }
    destruct (rcv s) as [j|] eqn:Ej; [discriminate|]. cbn [is_some] in E.
    destruct (Z.leb_spec (nxt s) (base s)); [discriminate|]. inv E. constructor; cbn; auto.
    + discriminate.
    + congruence.
  - destruct (mid s) eqn:Em; [|discriminate]. inv E. constructor; cbn; auto; try lia.
    + intros c f x H. specialize (D4 c f x H). lia.
  - destruct (ph s) eqn:Ep; [discriminate|]. inv E.
    destruct (Nat.eqb_spec (rph s) 1) as [H1|H1]; constructor; cbn; auto; try discriminate; try congruence.
    all: try solve [intros c f x H; inv H; lia].
    + intros _ _. apply R3; rewrite H1; discriminate.
    + intros _. apply Dt. rewrite H1. discriminate.
    + intros _. apply Dl. rewrite H1. discriminate.
  - destruct (ph s) as [[[c [|]] x]|] eqn:Ep; try discriminate. inv E. specialize (D4 _ _ _ eq_refl). constructor; cbn; auto.
    intros c' f x' H. inv H. lia.
  - destruct (ph s) as [[[c [|]] [|]]|] eqn:Ep; try discriminate. inv E. specialize (D4 _ _ _ eq_refl). constructor; cbn; auto; try lia.
    + intros c' f x' H. inv H. lia.
    + intros l H. rewrite A in H. discriminate.
  - destruct (ph s) as [[[c [|]] [|]]|] eqn:Ep; try discriminate. inv E.
    destruct (Nat.eqb_spec (rph s) 2) as [H1|H1]; constructor; cbn; auto; try discriminate; try congruence.
    all: try solve [intros c f x H; inv H; lia].
    + intros _ _. apply R3; rewrite H1; discriminate.
    + intros _. apply Dt. rewrite H1. discriminate.
    + intros _. apply Dl. rewrite H1. discriminate.
  - destruct (ld s) eqn:El; [discriminate|]. inv E. constructor; cbn; auto. intros l H. inv H. lia.
  - destruct (ld s) eqn:El; [|discriminate]. inv E. specialize (D5 _ eq_refl). constructor; cbn; auto; try lia. discriminate.
  - inv E. constructor; cbn; auto.
    + intros X. destruct (R4 X) as (P1 & P2 & P3 & P4 & P5). ands; auto.
      destruct (Z.leb_spec (Z.min upto (ck s)) (lim s)); lia.
    + intros X Y. specialize (R3 X Y). destruct (Dr _ R3) as (P1 & P2 & P3).
      destruct (Z.leb_spec (Z.min upto (ck s)) (lim s)); [exact R3|lia].
    + intros X Y. specialize (Dl X Y). destruct (Z.leb_spec (Z.min upto (ck s)) (lim s)); lia.
  - destruct (Nat.eqb_spec (rph s) 4) as [H4|H4]; [discriminate|]. cbn [orb] in E.
    destruct (is_some (rcv s) && (nxt s <=? upto)) eqn:C; [discriminate|]. inv E. specialize (Dt H4).
    assert (Hu : Z.min upto (lim s) < nxt s).
    { destruct (rcv s) as [j|]; [cbn in C; lia|]. specialize (Dl H4 eq_refl). lia. }
    constructor; cbn; auto.
    + congruence.
    + intros _. destruct (Z.leb_spec (Z.min upto (lim s)) (tr s)); lia.
    + destruct (Z.leb_spec (Z.min upto (lim s)) (tr s)); lia.
  - destruct (Z.leb_spec (nxt s) i); [|discriminate]. destruct (Nat.eqb_spec (rph s) 4); [discriminate|]. inv E.
    constructor; cbn; auto; try lia; try discriminate; try congruence. intros j Hj. inv Hj. ands; auto; lia.
  - destruct (rcv s) as [j|] eqn:Ej; [|discriminate]. inv E. destruct (Dr j eq_refl) as (P1 & P2 & P3).
    assert (N4 : rph s <> 4%nat) by (intros X; destruct (R4 X); congruence).
    constructor; cbn; auto; try lia; try discriminate; try congruence.
  - destruct (rcv s) as [j|] eqn:Ej; [|discriminate]. destruct (Dr j eq_refl) as (P1 & P2 & P3).
    destruct (Nat.eqb_spec (rph s) 3) as [H3|H3]; [|discriminate]. destruct (mid s) eqn:Em; [discriminate|]. inv E.
    specialize (R3 ltac:(lia) ltac:(lia)). injection R3 as R3. specialize (Dt ltac:(lia)).
    constructor; cbn; auto; try lia; try discriminate; try congruence.
    all: try solve [intros X; exfalso; now apply X | intros ? X; exfalso; now apply X].
    1: intros _; ands; auto; try lia.
    all: match goal with |- context [if ?a <=? ?b then _ else _] => destruct (Z.leb_spec a b) end; lia.
  - destruct (Nat.eqb_spec (rph s) 4) as [H4|H4]; [|discriminate]. inv E. destruct (R4 H4) as (P1 & P2 & P3 & P4 & P5).
    constructor; cbn; auto; try lia; try discriminate; try congruence.
    + intros c f x H. specialize (D4 c f x H). lia.
  - inv E. constructor; cbn; auto; try lia; try discriminate.
    intros j Hj. destruct (Dr j Hj) as (P1 & P2 & P3). ands; auto; [|discriminate].
    assert (N4 : rph s <> 4%nat) by (intros X; destruct (R4 X); congruence). specialize (Dt N4). lia.
Qed.
Lemma dinv_reach s : reach Raft calm s -> DInv s.
Proof.
  induction 1 as [|s e s' R IH A E]; [|exact (dinv_step s e s' IH A E)].
  constructor; cbn; intros; try discriminate; lia.
Qed.
Lemma calm_no_crash s e : reach Raft calm s -> step Raft s e <> Crash.
Proof.
  intros R C. destruct (dinv_reach s R) as [D1 Dr R4 R3 Dt Dl D2 D3 D4 D5 D6 D7 D8]. destruct e; cbn [step] in C;
    repeat match type of C with
    | (if ?b then _ else _) = _ => destruct b eqn:?; try discriminate
    | (match ?o with _ => _ end) = _ => destruct o eqn:?; try discriminate
    end; try discriminate.
  all: try (destruct (Z.leb_spec (nxt s) (base s)); [lia|discriminate]).
Qed.

(** ** Solo *)
Definition tame (s : st) (e : ev) : Prop := whole_commits s e /\ quiet_checkpoints s e.
Record SInv (s : st) : Prop := {
  so_tr : tr s = -1;
  so_com : forall l, 1 <= l < nxt s -> present s l;
  so_nxt : 0 <= nxt s <= log s + 1;
  so_midlog : mid s = true -> nxt s <= log s;
  so_up : commit s <= 0 \/ commit s < nxt s \/ (mid s = true /\ commit s = nxt s);
  so_dc : forall l, 1 <= l <= dc s -> In l (dur s);
  so_dclog : dc s <= 0 \/ dc s <= log s;
  so_ph : forall c f x, ph s = Some (c, f, x) -> (f = true -> old s = []) /\
          (x = false -> mid s = false /\ forall l, 1 <= l < nxt s -> In l (dur s) \/ In l (old s));
  so_rph : rph s = 0%nat;
  so_ld : ld s = None;
  so_idle : ph s = None -> old s = [] }.
Lemma sinv_step s e s' : SInv s -> tame s e -> step Solo s e = Next s' -> SInv s'.
Proof.
  intros [It Ic Ix Iml Iu Id Idl Ip Ir Il Io] [A1 A2] E. destruct e; cbn [step] in E; cbn [whole_commits quiet_checkpoints] in *;
    rewrite ?Ir in E; cbn [Nat.eqb] in E.
  - inv E. constructor; unfold present in *; cbn; auto; try lia.
  - destruct (mid s) eqn:Em; [discriminate|]. cbn [orb] in E. destruct (Z.ltb_spec (log s) (nxt s)); [discriminate|].
    inv E. constructor; unfold present in *; cbn; auto; try lia.
    intros c f x Ep. destruct (Ip c f x Ep) as [P1 P2]. split; auto. intros ->. exfalso. apply A2. unfold in_window. now rewrite Ep.
  - destruct (mid s) eqn:Em; [|discriminate]. inv E. specialize (Iml eq_refl). constructor; unfold present in *; cbn; auto; try lia.
    + intros l Hl. destruct (Z.eq_dec l (nxt s)) as [->|Hne].
      * right. right. apply in_or_app. right. now left.
      * destruct (Ic l ltac:(lia)) as [P|[P|P]]; auto. right. right. apply in_or_app. auto.
    + intros c f x Ep. destruct (Ip c f x Ep) as [P1 P2]. split; auto. intros ->. exfalso. apply A2. unfold in_window. now rewrite Ep.
  - destruct (ph s) eqn:Ep; [discriminate|]. inv E. specialize (Io eq_refl). constructor; unfold present in *; cbn; auto; rewrite ?Io in *.
    + intros l Hl. destruct (Ic l Hl) as [P|[[]|P]]; auto.
    + intros c f x H. inv H. split; [discriminate|]. intros _. split; auto. intros l Hl. destruct (Ic l Hl) as [P|[[]|P]]; auto.
    + discriminate.
  - destruct (ph s) as [[[c [|]] x]|] eqn:Ep; try discriminate. inv E. destruct (Ip _ _ _ eq_refl) as [P1 P2].
    constructor; unfold present in *; cbn; auto.
    + intros l Hl. destruct (Ic l Hl) as [P|[P|P]]; auto; left; apply in_or_app; auto.
    + intros l Hl. apply in_or_app. auto.
    + intros c' f x' H. inv H. split; auto. intros Ex. destruct (P2 Ex) as [P3 P4]. split; auto.
      intros l Hl. left. apply in_or_app. destruct (P4 l Hl); auto.
  - destruct (ph s) as [[[c [|]] [|]]|] eqn:Ep; try discriminate. inv E. destruct (Ip _ _ _ eq_refl) as [P1 P2].
    specialize (P1 eq_refl). destruct (P2 eq_refl) as [P3 P4]. constructor; unfold present in *; cbn; auto.
    + intros l Hl. destruct (P4 l) as [P|P]; auto; [|rewrite P1 in P; destruct P].
      destruct Iu as [?|[?|[? ?]]]; try lia; congruence.
    + destruct Iu as [?|[?|[? ?]]]; try lia; congruence.
  - destruct (ph s) as [[[c [|]] [|]]|] eqn:Ep; try discriminate. inv E. destruct (Ip _ _ _ eq_refl) as [P1 P2].
    constructor; unfold present in *; cbn; auto. discriminate.
  - discriminate.
  - rewrite Il in E. discriminate.
  - discriminate.
  - discriminate.
  - discriminate.
  - discriminate.
  - discriminate.
  - discriminate.
  - inv E. constructor; unfold present; cbn; auto; try lia; try discriminate.
    intros l Hl. destruct (Z_le_gt_dec l (dc s)); [left; apply Id; lia|]. right. right. apply between_in. lia.
Qed.

Lemma sinv_reach s : reach Solo tame s -> SInv s.
Proof.
  induction 1 as [|s e s' R IH A E]; [|exact (sinv_step s e s' IH A E)].
  constructor; cbn; intros; try discriminate; try lia; auto.
Qed.
Lemma solo_replay s s' l : reach Solo tame s -> step Solo s Reboot = Next s' -> 1 <= l <= log s -> present s' l.
Proof.
  intros R E Hl. pose proof (sinv_reach s R) as I.
  pose proof (sinv_step s Reboot s' I (conj Logic.I Logic.I) E) as I'. apply (so_com _ I').
  cbn [step] in E. inv E. cbn. lia.
Qed.

(** ** Runs *)
Fixpoint okrun (k : kind) (al : st -> ev -> bool) (s : st) (l : list ev) : bool :=
  match l with
  | [] => true
  | e :: t => al s e && match step k s e with Next s' => okrun k al s' t | _ => false end
  end.
Fixpoint ends (k : kind) (s : st) (l : list ev) : st :=
  match l with
  | [] => s
  | e :: t => match step k s e with Next s' => ends k s' t | _ => s end
  end.
Lemma reach_run k (al : st -> ev -> bool) (A : st -> ev -> Prop) : (forall s e, al s e = true -> A s e) ->
  forall l s, reach k A s -> okrun k al s l = true -> reach k A (ends k s l).
Proof.
  intros Sound l. induction l as [|e t IH]; intros s R O; cbn [okrun ends] in *; [exact R|].
  destruct (al s e) eqn:Ea; [|discriminate]. cbn [andb] in O. destruct (step k s e) as [s1| |] eqn:E; try discriminate.
  apply IH; [|exact O]. exact (reach_step k A s e s1 R (Sound s e Ea) E).
Qed.
