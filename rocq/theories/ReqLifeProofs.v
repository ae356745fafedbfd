(** * Proofs about the life of requests. *)
From Coq Require Import NArith Arith List Bool Lia.
From Verif Require Import Base ReqLifeModel ReqLifeSpec.
Import ListNotations.

Lemma upd_same {A} (f : nat -> A) x v : upd f x v x = v.
Proof. unfold upd. now rewrite Nat.eqb_refl. Qed.
Lemma upd_other {A} (f : nat -> A) x v y : y <> x -> upd f x v y = f y.
Proof. intros H. unfold upd. destruct (Nat.eqb_spec y x); congruence. Qed.
Lemma updk_same {A} (f : N -> A) x v : updk f x v x = v.
Proof. unfold updk. now rewrite N.eqb_refl. Qed.
Lemma updk_other {A} (f : N -> A) x v y : y <> x -> updk f x v y = f y.
Proof. intros H. unfold updk. destruct (N.eqb_spec y x); congruence. Qed.

Lemma settle_app o : forall live o', settle live (o ++ o') = match settle live o with Some l => settle l o' | None => None end.
Proof.
  induction o as [|x o IH]; intros live o'; [reflexivity|]. cbn. destruct x; destruct (in_dec _ _ _); auto.
Qed.
Lemma committed_app o o' : committed (o ++ o') = committed o ++ committed o'.
Proof. apply flat_map_app. Qed.

Record inv (s : st) (live : list nat) : Prop := Inv {
  i_ord : s_done s <= s_flushed s <= s_len s;
  i_key : forall k r, s_key s k = Some r -> s_rkey s r = k /\ r < s_next s;
  i_lsn : forall i r, s_lsn s i = Some r -> s_done s < i <= s_len s /\ s_log s i = Some (s_rkey s r) /\ s_at s r = i /\
    s_key s (s_rkey s r) = Some r /\ s_blks s r = true /\ s_fl s r = (i <=? s_flushed s);
  i_log : forall i k, s_done s < i <= s_len s -> s_log s i = Some k -> exists r, s_lsn s i = Some r;
  i_at : forall k r, s_key s k = Some r -> (s_at s r = 0 /\ s_fl s r = false) \/ s_lsn s (s_at s r) = Some r;
  i_nodup : NoDup live;
  i_live : forall r, In r live <-> exists k, s_key s k = Some r /\ s_blks s r = true }.

Lemma inv_init : inv init [].
Proof.
  constructor; cbn; try discriminate; [lia|constructor|]. intros r. split; [tauto|]. intros (k & H & _). discriminate.
Qed.

Lemma lsn_of s live i k : inv s live -> s_done s < i <= s_len s -> s_log s i = Some k ->
  exists r, s_lsn s i = Some r /\ s_rkey s r = k /\ s_key s k = Some r /\ s_blks s r = true /\ s_at s r = i.
Proof.
  intros I Hi Hl. destruct (i_log _ _ I i k Hi Hl) as [r Hr]. destruct (i_lsn _ _ I i r Hr) as (_ & L & A & K & B & _).
  rewrite Hl in L. injection L as ->. eauto 8.
Qed.

(** ** Receiving *)
Lemma fresh_inv s live k : inv s live -> let (s', r) := fresh s k in inv s' live /\ s_key s' k = Some r /\
  s_log s' = s_log s /\ s_len s' = s_len s /\ s_flushed s' = s_flushed s /\ s_done s' = s_done s /\ s_lsn s' = s_lsn s /\
  (s_key s k = None -> s_blks s' r = false) /\ (s_key s k <> None -> s' = s).
Proof.
  intros I. unfold fresh. destruct (s_key s k) as [r|] eqn:E; [split; [exact I|]; split; [exact E|]; repeat split; congruence|].
  assert (Fr : forall k' r', s_key s k' = Some r' -> r' <> s_next s) by (intros k' r' H; apply (i_key _ _ I) in H; lia).
  assert (Fk : forall k' r', s_key s k' = Some r' -> k' <> k) by (intros k' r' H ->; congruence).
  cbn. split; [|rewrite updk_same, upd_same; repeat split; auto; congruence].
  constructor; cbn.
  - apply I.
  - intros k' r' H. destruct (N.eq_dec k' k) as [->|Hk].
    + rewrite updk_same in H. injection H as <-. rewrite upd_same. split; [reflexivity|lia].
    + rewrite updk_other in H by assumption. rewrite upd_other by eauto. destruct (i_key _ _ I _ _ H). split; [assumption|lia].
  - intros i r' H. destruct (i_lsn _ _ I i r' H) as (A & B & C & D & F & G). rewrite !upd_other by eauto.
    rewrite updk_other by eauto. repeat split; tauto.
  - intros i k' H1 H2. exact (i_log _ _ I i k' H1 H2).
  - intros k' r' H. destruct (N.eq_dec k' k) as [->|Hk].
    + rewrite updk_same in H. injection H as <-. rewrite !upd_same. left. auto.
    + rewrite updk_other in H by assumption. rewrite !upd_other by eauto. exact (i_at _ _ I _ _ H).
  - apply I.
  - intros r'. rewrite (i_live _ _ I). split; intros (k' & H1 & H2); exists k'.
    + rewrite updk_other, upd_other by eauto. auto.
    + destruct (N.eq_dec k' k) as [->|Hk].
      * rewrite updk_same in H1. injection H1 as <-. rewrite upd_same in H2. discriminate.
      * rewrite updk_other in H1 by assumption. rewrite upd_other in H2 by eauto. auto.
Qed.

Definition same_log (s s' : st) : Prop :=
  s_log s' = s_log s /\ s_len s' = s_len s /\ s_flushed s' = s_flushed s /\ s_done s' = s_done s.

Lemma receive_inv s live k ok : inv s live -> let '(s', o, r) := receive s k ok in
  exists live', settle live o = Some live' /\ inv s' live' /\ s_key s' k = Some r /\ committed o = [] /\ same_log s s' /\ s_lsn s' = s_lsn s /\
  (ok = true -> s_blks s' r = true) /\ (forall r0, s_key s k = Some r0 -> s_blks s r0 = true -> s_blks s' r = true).
Proof.
  intros I. unfold receive. pose proof (fresh_inv s live k I) as F. destruct (fresh s k) as [s1 r].
  destruct F as (I1 & K & A & B & C & D & E & G & H).
  assert (X : forall r0, s_key s k = Some r0 -> s1 = s /\ r0 = r).
  { intros r0 E0. assert (s1 = s) by (apply H; congruence). subst s1. split; [reflexivity|congruence]. }
  destruct (s_blks s1 r) eqn:Eb; [|destruct ok].
  - exists live. split; [reflexivity|]. split; [exact I1|]. repeat split; auto.
  - exists (r :: live).
    assert (Hr : ~ In r live) by (rewrite (i_live _ _ I1); intros (k' & _ & Z); congruence).
    split; [cbn; destruct (in_dec Nat.eq_dec r live); [contradiction|reflexivity]|].
    split; [|cbn; rewrite upd_same; repeat split; auto].
    constructor; cbn.
    + apply I1.
    + apply I1.
    + intros i r' Hi. destruct (i_lsn _ _ I1 i r' Hi) as (Z1 & Z2 & Z3 & Z4 & Z5 & Z6).
      repeat split; try tauto. unfold upd. destruct (_ =? _); auto.
    + apply I1.
    + apply I1.
    + constructor; [exact Hr|apply I1].
    + intros r'. destruct (Nat.eq_dec r' r) as [->|Hne].
      * rewrite upd_same. split; [eauto|auto].
      * rewrite upd_other by assumption. rewrite <- (i_live _ _ I1). split; [intros [->|]; congruence|auto].
  - exists live. split; [reflexivity|]. split; [exact I1|]. split; [exact K|]. split; [reflexivity|]. split; [split; auto|].
    split; [exact E|]. split; [discriminate|]. intros r0 E0 B0. destruct (X r0 E0) as [-> ->]. exact B0.
Qed.

(** ** Appending *)
Definition in_log (s : st) (k : N) : Prop := exists i, s_done s < i <= s_len s /\ s_log s i = Some k.

Lemma put_none_inv s live : inv s live -> inv (put_log s None) live.
Proof.
  intros I. destruct (i_ord _ _ I). constructor; cbn.
  - lia.
  - apply I.
  - intros i r H1. destruct (i_lsn _ _ I i r H1) as (A & B & C & D & F & G). rewrite upd_other by lia. repeat split; try tauto; lia.
  - intros i k H1 H2. destruct (Nat.eq_dec i (S (s_len s))) as [->|Hi]; [rewrite upd_same in H2; discriminate|].
    rewrite upd_other in H2 by assumption. apply (i_log _ _ I i k); [lia|assumption].
  - apply I.
  - apply I.
  - apply I.
Qed.

Lemma link_inv s live k r : inv s live -> s_key s k = Some r -> s_blks s r = true -> ~ in_log s k ->
  inv (link (put_log s (Some k)) r (S (s_len s))) live.
Proof.
  intros I K B N. pose proof (i_ord _ _ I) as O. pose proof (i_key _ _ I _ _ K) as [Rk Rn].
  assert (Hn : s_lsn s (S (s_len s)) = None).
  { destruct (s_lsn s (S (s_len s))) as [r'|] eqn:E; [|reflexivity]. apply (i_lsn _ _ I) in E. lia. }
  assert (Hnl : forall i, s_lsn s i <> Some r).
  { intros i H. destruct (i_lsn _ _ I i r H) as (A & L & _). apply N. exists i. rewrite <- Rk. auto. }
  assert (H0 : s_at s r = 0 /\ s_fl s r = false) by (destruct (i_at _ _ I _ _ K) as [H|H]; [exact H|now apply Hnl in H]).
  unfold link. cbn. rewrite Hn. constructor; cbn.
  - lia.
  - apply I.
  - intros i r' H. destruct (Nat.eq_dec i (S (s_len s))) as [->|Hi].
    + rewrite upd_same in H. injection H as <-. rewrite !upd_same. rewrite Rk. destruct H0 as [_ ->].
      split; [lia|]. split; [reflexivity|]. split; [reflexivity|]. split; [exact K|]. split; [exact B|].
      symmetry. apply Nat.leb_gt. lia.
    + rewrite upd_other in H by assumption. assert (r' <> r) by (intros ->; now apply Hnl in H).
      destruct (i_lsn _ _ I i r' H) as (A & L & C & D & F & G). rewrite !upd_other by lia. repeat split; try tauto; lia.
  - intros i k' H1 H2. destruct (Nat.eq_dec i (S (s_len s))) as [->|Hi]; [rewrite upd_same; eauto|].
    rewrite (upd_other (s_log s)) in H2 by assumption. rewrite (upd_other (s_lsn s)) by assumption. apply (i_log _ _ I i k'); [lia|assumption].
  - intros k' r' H. destruct (Nat.eq_dec r' r) as [->|Hr].
    + rewrite !upd_same. now right.
    + rewrite (upd_other (s_at s)) by assumption. destruct (i_at _ _ I _ _ H) as [X|X]; [now left|].
      right. destruct (i_lsn _ _ I _ _ X) as (A & _). rewrite upd_other by lia. exact X.
  - apply I.
  - apply I.
Qed.

(** ** Flushing *)
Lemma mark_all s l : forall fl r, fold_left (mark s) l fl r = true <-> fl r = true \/ exists i, In i l /\ s_lsn s i = Some r.
Proof.
  induction l as [|i l IH]; intros fl r; cbn [fold_left].
  - split; [auto|]. intros [H|(j & [] & _)]. exact H.
  - rewrite IH. unfold mark at 1. destruct (s_lsn s i) as [r'|] eqn:E.
    + split.
      * intros [H|(j & Hj & Hr)]; [|right; exists j; cbn; auto]. destruct (Nat.eq_dec r r') as [->|Hr].
        -- right. exists i. cbn. auto.
        -- rewrite upd_other in H by assumption. now left.
      * intros [H|(j & [<-|Hj] & Hr)]; [|left|right; eauto].
        -- left. unfold upd. destruct (_ =? _); auto.
        -- rewrite E in Hr. injection Hr as ->. apply upd_same.
    + split; intros [H|(j & Hj & Hr)]; auto; right; [exists j; cbn; auto|].
      destruct Hj as [<-|Hj]; [congruence|]. eauto.
Qed.

Lemma flush_inv s live : inv s live -> inv (flush s) live.
Proof.
  intros I. pose proof (i_ord _ _ I) as O.
  assert (M : forall r, s_fl (flush s) r = true <-> s_fl s r = true \/ exists i, s_flushed s < i <= s_len s /\ s_lsn s i = Some r).
  { intros r. cbn. rewrite mark_all. split; (intros [H|(i & Hi & Hr)]; [now left|]; right; exists i; split; [|exact Hr]).
    - apply in_seq in Hi. lia.
    - apply in_seq. lia. }
  constructor; cbn [flush s_done s_flushed s_len s_key s_rkey s_next s_lsn s_log s_at s_blks].
  - lia.
  - apply I.
  - intros i r H. destruct (i_lsn _ _ I i r H) as (A & L & C & D & F & G). repeat split; try tauto.
    replace (i <=? s_len s) with true by (symmetry; apply Nat.leb_le; lia).
    apply M. destruct (Nat.leb_spec i (s_flushed s)); [left; exact G|right; exists i; split; [lia|exact H]].
  - apply I.
  - intros k r H. destruct (i_at _ _ I _ _ H) as [[A F]|A]; [|now right]. left. split; [exact A|].
    destruct (s_fl (flush s) r) eqn:E; [|reflexivity]. apply M in E as [E|(i & Hi & Hr)]; [congruence|].
    apply (i_lsn _ _ I) in Hr. lia.
  - apply I.
  - apply I.
Qed.

(** ** Taking a request off *)
Lemma remove_live live r x : In x (remove Nat.eq_dec r live) <-> In x live /\ x <> r.
Proof. split; [apply in_remove|]. intros [A B]. now apply in_in_remove. Qed.
Lemma remove_nodup live r : NoDup live -> NoDup (remove Nat.eq_dec r live).
Proof.
  induction 1 as [|x l Hx _ IH]; cbn; [constructor|]. destruct (Nat.eq_dec r x); [exact IH|]. constructor; [|exact IH].
  rewrite remove_live. tauto.
Qed.

(** What is left when a request is off both maps; [cut] is the index that is no longer of interest. *)
Lemma gone_live s live r : inv s live -> s_key s (s_rkey s r) = Some r -> forall x, In x (remove Nat.eq_dec r live) <->
  exists k, updk (s_key s) (s_rkey s r) None k = Some x /\ upd (s_blks s) r false x = true.
Proof.
  intros I K x. rewrite remove_live, (i_live _ _ I). split.
  - intros ((k & H1 & H2) & Hx). exists k. rewrite upd_other by assumption. rewrite updk_other; [auto|].
    intros ->. congruence.
  - intros (k & H1 & H2). destruct (Nat.eq_dec x r) as [->|Hx]; [rewrite upd_same in H2; discriminate|].
    rewrite upd_other in H2 by assumption. split; [|exact Hx]. exists k.
    destruct (N.eq_dec k (s_rkey s r)) as [->|Hk]; [rewrite updk_same in H1; discriminate|].
    rewrite updk_other in H1 by assumption. auto.
Qed.

(** The request of an entry in the log. *)
Lemma forget_facts s live i r : inv s live -> s_lsn s i = Some r ->
  let s' := forget s r in
  (forall k x, s_key s' k = Some x -> s_key s k = Some x /\ x <> r) /\
  (forall j x, s_lsn s' j = Some x <-> s_lsn s j = Some x /\ j <> i) /\
  (forall j x, s_lsn s j = Some x -> j <> i -> x <> r /\ s_key s' (s_rkey s x) = Some x /\ s_blks s' x = true) /\
  NoDup (remove Nat.eq_dec r live) /\
  (forall x, In x (remove Nat.eq_dec r live) <-> exists k, s_key s' k = Some x /\ s_blks s' x = true) /\ In r live.
Proof.
  intros I E s'. destruct (i_lsn _ _ I i r E) as (A & L & C & D & F & G).
  assert (U : forall j x, s_lsn s' j = Some x <-> s_lsn s j = Some x /\ j <> i).
  { intros j x. unfold s', forget, unlink. cbn. rewrite C, E, Nat.eqb_refl. destruct (Nat.eq_dec j i) as [->|Hj].
    - rewrite upd_same. split; [discriminate|tauto].
    - rewrite upd_other by assumption. tauto. }
  split.
  { intros k x H. unfold s' in H. cbn in H. destruct (N.eq_dec k (s_rkey s r)) as [->|Hk]; [rewrite updk_same in H; discriminate|].
    rewrite updk_other in H by assumption. split; [exact H|]. intros ->. apply (i_key _ _ I) in H as [H _]. congruence. }
  split; [exact U|]. split.
  { intros j x Hj Hji. destruct (i_lsn _ _ I j x Hj) as (_ & _ & Cx & Dx & Bx & _).
    assert (x <> r) by (intros ->; congruence). split; [assumption|]. unfold s'. cbn. rewrite upd_other by assumption.
    rewrite updk_other; [auto|]. intros Z. rewrite Z in Dx. congruence. }
  split; [apply remove_nodup, I|]. split; [exact (gone_live s live r I D)|].
  apply (i_live _ _ I). eauto.
Qed.

Lemma rollback_last_inv s live : inv s live -> s_done s < s_len s ->
  let (s', o) := rollback_last s in
  exists live', settle live o = Some live' /\ inv s' live' /\ committed o = [] /\
  s_log s' = s_log s /\ s_len s' = s_len s - 1 /\ s_done s' = s_done s.
Proof.
  intros I Hlt. pose proof (i_ord _ _ I) as O. unfold rollback_last. destruct (s_log s (s_len s)) as [k|] eqn:El.
  - destruct (lsn_of s live (s_len s) k I ltac:(lia) El) as (r & Er & Rk & K & B & At). rewrite Er.
    destruct (forget_facts s live _ r I Er) as (F1 & F2 & F3 & F4 & F5 & F6).
    exists (remove Nat.eq_dec r live). unfold freed. rewrite B. cbn [settle].
    destruct (in_dec Nat.eq_dec r live); [|contradiction]. split; [reflexivity|]. split; [|repeat split].
    set (s' := forget s r) in *. constructor; cbn [drop s_done s_flushed s_len s_key s_lsn s_log s_rkey s_blks s_at s_fl s_next].
    + change (s_done s') with (s_done s). change (s_flushed s') with (s_flushed s). change (s_len s') with (s_len s). lia.
    + intros k' x H. apply F1 in H as [H _]. exact (i_key _ _ I _ _ H).
    + intros j x H. apply F2 in H as [H Hj]. destruct (i_lsn _ _ I j x H) as (A' & L' & C' & _ & _ & G'). destruct (F3 j x H Hj) as (_ & X1 & X2).
      change (s_done s') with (s_done s). change (s_flushed s') with (s_flushed s). change (s_len s') with (s_len s).
      repeat split; try tauto; try lia. change (s_fl s' x) with (s_fl s x). rewrite G'. 
      destruct (Nat.leb_spec j (s_flushed s)), (Nat.leb_spec j (Nat.min (s_flushed s) (s_len s - 1))); lia || reflexivity.
    + change (s_done s') with (s_done s). change (s_len s') with (s_len s). intros j k' H1 H2.
      destruct (i_log _ _ I j k' ltac:(lia) H2) as [x Hx]. exists x. apply F2. split; [exact Hx|lia].
    + intros k' x H. apply F1 in H as [H Hx]. destruct (i_at _ _ I _ _ H) as [X|X]; [now left|].
      right. apply F2. split; [exact X|]. change (s_at s' x) with (s_at s x). intros Z. rewrite Z in X. congruence.
    + exact F4.
    + exact F5.
  - exists live. split; [reflexivity|]. split; [|repeat split]. constructor; cbn.
    + lia.
    + apply I.
    + intros j x H. destruct (i_lsn _ _ I j x H) as (A' & L' & C' & D' & B' & G'). assert (j <> s_len s) by (intros ->; congruence).
      repeat split; try tauto; try lia. rewrite G'.
      destruct (Nat.leb_spec j (s_flushed s)), (Nat.leb_spec j (Nat.min (s_flushed s) (s_len s - 1))); lia || reflexivity.
    + intros j k' H1 H2. apply (i_log _ _ I j k'); [lia|assumption].
    + apply I.
    + apply I.
    + apply I.
Qed.

Lemma rollback_inv n : forall s live, inv s live -> s_done s + n <= s_len s ->
  let (s', o) := rollback n s in
  exists live', settle live o = Some live' /\ inv s' live' /\ committed o = [] /\
  s_log s' = s_log s /\ s_len s' = s_len s - n /\ s_done s' = s_done s.
Proof.
  induction n as [|n IH]; intros s live I H; cbn [rollback].
  - exists live. split; [reflexivity|]. split; [exact I|]. repeat split; lia.
  - pose proof (rollback_last_inv s live I ltac:(lia)) as R. destruct (rollback_last s) as [s1 o1].
    destruct R as (l1 & S1 & I1 & C1 & L1 & N1 & D1). specialize (IH s1 l1 I1 ltac:(lia)). destruct (rollback n s1) as [s2 o2].
    destruct IH as (l2 & S2 & I2 & C2 & L2 & N2 & D2). exists l2. rewrite settle_app, S1, committed_app, C1, C2.
    split; [exact S2|]. split; [exact I2|]. split; [reflexivity|]. split; [congruence|]. split; [lia|congruence].
Qed.

Lemma commit_inv s live : inv s live -> s_done s < s_flushed s ->
  exists s' o live', commit s = Some (s', o) /\ settle live o = Some live' /\ inv s' live' /\
  committed o = (match s_log s (S (s_done s)) with Some k => [(S (s_done s), k)] | None => [] end) /\
  s_log s' = s_log s /\ s_len s' = s_len s /\ s_done s' = S (s_done s).
Proof.
  intros I Hlt. pose proof (i_ord _ _ I) as O. unfold commit. destruct (s_log s (S (s_done s))) as [k|] eqn:El.
  - destruct (lsn_of s live (S (s_done s)) k I ltac:(lia) El) as (r & Er & Rk & K & B & At). rewrite Er.
    destruct (forget_facts s live _ r I Er) as (F1 & F2 & F3 & F4 & F5 & F6).
    do 2 eexists. exists (remove Nat.eq_dec r live). split; [reflexivity|]. cbn [settle].
    destruct (in_dec Nat.eq_dec r live); [|contradiction]. split; [reflexivity|]. split; [|cbn; rewrite At, Rk; repeat split].
    set (s' := forget s r) in *. constructor; cbn [s_done s_flushed s_len s_key s_lsn s_log s_rkey s_blks s_at s_fl s_next].
    + change (s_flushed s') with (s_flushed s). change (s_len s') with (s_len s). lia.
    + intros k' x H. apply F1 in H as [H _]. exact (i_key _ _ I _ _ H).
    + intros j x H. apply F2 in H as [H Hj]. destruct (i_lsn _ _ I j x H) as (A' & L' & C' & _ & _ & G'). destruct (F3 j x H Hj) as (_ & X1 & X2).
      change (s_flushed s') with (s_flushed s). change (s_len s') with (s_len s). repeat split; try tauto; lia.
    + change (s_len s') with (s_len s). intros j k' H1 H2.
      destruct (i_log _ _ I j k' ltac:(lia) H2) as [x Hx]. exists x. apply F2. split; [exact Hx|lia].
    + intros k' x H. apply F1 in H as [H Hx]. destruct (i_at _ _ I _ _ H) as [X|X]; [now left|].
      right. apply F2. split; [exact X|]. change (s_at s' x) with (s_at s x). intros Z. rewrite Z in X. congruence.
    + exact F4.
    + exact F5.
  - do 2 eexists. exists live. split; [reflexivity|]. split; [reflexivity|]. split; [|repeat split]. constructor; cbn.
    + lia.
    + apply I.
    + intros j x H. destruct (i_lsn _ _ I j x H) as (A' & L' & C' & D' & B' & G'). assert (j <> S (s_done s)) by (intros ->; congruence).
      repeat split; try tauto; lia.
    + intros j k' H1 H2. apply (i_log _ _ I j k'); [lia|assumption].
    + apply I.
    + apply I.
    + apply I.
Qed.

Lemma unkey_inv s live k r : inv s live -> s_key s k = Some r -> ~ in_log s k ->
  exists live', settle live (freed s r) = Some live' /\ inv (unkey s r) live' /\ committed (freed s r) = [].
Proof.
  intros I K N. pose proof (i_key _ _ I _ _ K) as [Rk Rn].
  assert (Hnl : forall i, s_lsn s i <> Some r).
  { intros i H. destruct (i_lsn _ _ I i r H) as (A & L & _). apply N. exists i. rewrite <- Rk. auto. }
  assert (Q : forall live', NoDup live' ->
    (forall x, In x live' <-> exists k0, updk (s_key s) (s_rkey s r) None k0 = Some x /\ upd (s_blks s) r false x = true) -> inv (unkey s r) live').
  { intros live' Hd Hl. constructor; cbn.
    - apply I.
    - intros k' x H. unfold updk in H. destruct (_ =? _)%N; [discriminate|]. exact (i_key _ _ I _ _ H).
    - intros i x H. assert (Hx : x <> r) by (intros ->; now apply Hnl in H).
      destruct (i_lsn _ _ I i x H) as (A & L & C & D & F & G). rewrite upd_other by assumption.
      rewrite updk_other by (intros Z; rewrite Z in D; congruence). repeat split; tauto.
    - apply I.
    - intros k' x H. unfold updk in H. destruct (_ =? _)%N; [discriminate|]. exact (i_at _ _ I _ _ H).
    - exact Hd.
    - exact Hl. }
  rewrite <- Rk in K. pose proof (gone_live s live r I K) as G. unfold freed. destruct (s_blks s r) eqn:B.
  - exists (remove Nat.eq_dec r live). cbn [settle]. assert (In r live) by (apply (i_live _ _ I); eauto).
    destruct (in_dec Nat.eq_dec r live); [|contradiction]. split; [reflexivity|]. split; [|reflexivity].
    apply Q; [apply remove_nodup, I|exact G].
  - exists live. split; [reflexivity|]. split; [|reflexivity]. apply Q; [apply I|].
    intros x. rewrite <- G, remove_live. split; [|tauto]. intros H. split; [exact H|]. intros ->.
    apply (i_live _ _ I) in H as (k' & _ & H). congruence.
Qed.

Lemma error_inv s live k : inv s live -> ~ in_log s k -> let (s', o) := error s k in
  exists live', settle live o = Some live' /\ inv s' live' /\ committed o = [] /\ same_log s s'.
Proof.
  intros I N. unfold error. destruct (s_key s k) as [r|] eqn:K.
  - destruct (unkey_inv s live k r I K N) as (l' & S1 & I1 & C1). exists l'. split; [exact S1|]. split; [exact I1|].
    split; [exact C1|repeat split].
  - exists live. split; [reflexivity|]. split; [exact I|]. split; [reflexivity|repeat split].
Qed.
Lemma clear_inv l : forall s live, inv s live -> s_done s = s_len s -> let (s', o) := clear s l in
  exists live', settle live o = Some live' /\ inv s' live' /\ committed o = [] /\ same_log s s'.
Proof.
  induction l as [|k l IH]; intros s live I H; cbn [clear].
  - exists live. split; [reflexivity|]. split; [exact I|]. split; [reflexivity|repeat split].
  - pose proof (error_inv s live k I ltac:(intros (i & Hi & _); lia)) as R. destruct (error s k) as [s1 o1].
    destruct R as (l1 & S1 & I1 & C1 & (A & B & C & D)). specialize (IH s1 l1 I1 ltac:(congruence)). destruct (clear s1 l) as [s2 o2].
    destruct IH as (l2 & S2 & I2 & C2 & (A2 & B2 & C3 & D2)). exists l2. rewrite settle_app, S1, committed_app, C1, C2.
    split; [exact S2|]. split; [exact I2|]. split; [reflexivity|]. repeat split; congruence.
Qed.

(** ** All steps *)
Definition room (s : st) (k : N) (ok : bool) : Prop := ok = true \/ exists r, s_key s k = Some r /\ s_blks s r = true.
(** What NuRaft and the listener keep to: an entry is not appended twice; only uncommitted entries are overwritten;
    only flushed ones are committed; requests fail before they are in the log; those in the log are flushed
    before they expire; a chunk is given up after everything in the log is committed. *)
Definition legal (s : st) (e : ev) : Prop :=
  match e with
  | Append (Some k) ok => ~ in_log s k /\ room s k ok
  | Overwrite n => s_done s <= n <= s_len s
  | Commit => s_done s < s_flushed s
  | Error k => ~ in_log s k
  | Collect k => forall i, s_flushed s < i <= s_len s -> s_log s i <> Some k
  | Clear _ => s_done s = s_len s
  | _ => True
  end.

Definition rel (s : st) (p : plain) : Prop :=
  length (p_log p) = s_len s /\ p_done p = s_done s /\ forall i, i < s_len s -> nth_error (p_log p) i = Some (s_log s (S i)).

Lemma rel_same s s' p : s_log s' = s_log s -> s_len s' = s_len s -> s_done s' = s_done s -> rel s p -> rel s' p.
Proof. intros A B C (R1 & R2 & R3). unfold rel. rewrite A, B, C. auto. Qed.

Lemma rel_app s p e lg : rel s p -> lg = upd (s_log s) (S (s_len s)) e -> forall s', s_log s' = lg -> s_len s' = S (s_len s) -> s_done s' = s_done s ->
  rel s' (Plain (p_log p ++ [e]) (p_done p)).
Proof.
  intros (R1 & R2 & R3) -> s' A B C. unfold rel. cbn. rewrite A, B, C, app_length, R1. cbn. split; [lia|]. split; [exact R2|].
  intros i Hi. destruct (Nat.eq_dec i (s_len s)) as [->|Hne].
  - rewrite upd_same, nth_error_app2 by lia. now rewrite R1, Nat.sub_diag.
  - rewrite upd_other by lia. rewrite nth_error_app1 by lia. apply R3. lia.
Qed.

Lemma nth_firstn {A} n (l : list A) i : i < n -> nth_error (firstn n l) i = nth_error l i.
Proof.
  revert l i. induction n as [|n IH]; intros l i H; [lia|]. destruct l, i; cbn; auto. apply IH. lia.
Qed.

Lemma step_ok s live p e : inv s live -> rel s p -> legal s e ->
  exists s' o live', step s e = Some (s', o) /\ settle live o = Some live' /\ inv s' live' /\
    rel s' (fst (plain_step p e)) /\ committed o = snd (plain_step p e).
Proof.
  intros I R Hl. destruct e as [k ok|[k|] ok| |n| |k|k|l]; cbn [step plain_step fst snd legal] in *.
  - pose proof (receive_inv s live k ok I) as H. destruct (receive s k ok) as [[s' o] r].
    destruct H as (l' & S1 & I1 & _ & C1 & (A & B & C & D) & _). exists s', o, l'. split; [reflexivity|]. split; [exact S1|]. split; [exact I1|].
    split; [now apply (rel_same s)|exact C1].
  - destruct Hl as [Nl Hr]. unfold append. pose proof (receive_inv s live k ok I) as H. destruct (receive s k ok) as [[s' o] r].
    destruct H as (l' & S1 & I1 & K1 & C1 & (A & B & C & D) & L1 & O1 & O2).
    assert (Hb : s_blks s' r = true) by (destruct Hr as [->|(r0 & H1 & H2)]; [now apply O1|exact (O2 r0 H1 H2)]).
    rewrite Hb. do 2 eexists. exists l'. split; [reflexivity|]. split; [exact S1|].
    assert (Nl' : ~ in_log s' k) by (unfold in_log; rewrite A, B, D; exact Nl).
    split; [now apply link_inv|]. split; [|exact C1]. eapply (rel_app s); [exact R|reflexivity|..]; cbn; congruence.
  - do 2 eexists. exists live. split; [reflexivity|]. split; [reflexivity|]. split; [now apply put_none_inv|]. split; [|reflexivity].
    eapply (rel_app s); [exact R|reflexivity|..]; reflexivity.
  - do 2 eexists. exists live. split; [reflexivity|]. split; [reflexivity|]. split; [now apply flush_inv|]. split; [|reflexivity].
    now apply (rel_same s).
  - pose proof (rollback_inv (s_len s - n) s live I ltac:(lia)) as H. destruct (rollback (s_len s - n) s) as [s' o].
    destruct H as (l' & S1 & I1 & C1 & L1 & N1 & D1). exists s', o, l'. split; [reflexivity|]. split; [exact S1|]. split; [exact I1|].
    split; [|exact C1]. destruct R as (R1 & R2 & R3). unfold rel. cbn. rewrite firstn_length, R1, N1, L1, D1.
    split; [lia|]. split; [exact R2|]. intros i Hi. rewrite nth_firstn by lia. apply R3. lia.
  - destruct (commit_inv s live I Hl) as (s' & o & l' & E & S1 & I1 & C1 & L1 & N1 & D1).
    pose proof (i_ord _ _ I) as O. exists s', o, l'. split; [exact E|]. split; [exact S1|]. split; [exact I1|]. destruct R as (R1 & R2 & R3).
    split; [unfold rel; cbn; rewrite L1, N1, D1, R2; auto|]. rewrite C1, R2, R3 by lia. reflexivity.
  - pose proof (error_inv s live k I Hl) as H. destruct (error s k) as [s' o]. destruct H as (l' & S1 & I1 & C1 & (A & B & C & D)).
    exists s', o, l'. split; [reflexivity|]. split; [exact S1|]. split; [exact I1|]. split; [now apply (rel_same s)|exact C1].
  - unfold collect. destruct (s_key s k) as [r|] eqn:K; [destruct (s_fl s r) eqn:F|].
    + do 2 eexists. exists live. split; [reflexivity|]. split; [reflexivity|]. split; [exact I|]. split; [exact R|reflexivity].
    + assert (Nl : ~ in_log s k).
      { intros (i & Hi & L). destruct (lsn_of s live i k I Hi L) as (r' & Er & _ & K' & _ & _).
        assert (r' = r) by congruence. subst r'. destruct (i_lsn _ _ I i r Er) as (_ & _ & _ & _ & _ & G). rewrite F in G.
        symmetry in G. apply Nat.leb_gt in G. apply (Hl i); [lia|exact L]. }
      destruct (unkey_inv s live k r I K Nl) as (l' & S1 & I1 & C1). do 2 eexists. exists l'. split; [reflexivity|].
      split; [exact S1|]. split; [exact I1|]. split; [now apply (rel_same s)|exact C1].
    + do 2 eexists. exists live. split; [reflexivity|]. split; [reflexivity|]. split; [exact I|]. split; [exact R|reflexivity].
  - pose proof (clear_inv l s live I Hl) as H. destruct (clear s l) as [s' o]. destruct H as (l' & S1 & I1 & C1 & (A & B & C & D)).
    exists s', o, l'. split; [reflexivity|]. split; [exact S1|]. split; [exact I1|]. split; [now apply (rel_same s)|exact C1].
Qed.

Fixpoint legal_run (s : st) (l : list ev) : Prop :=
  match l with
  | [] => True
  | e :: l => legal s e /\ match step s e with Some (s', _) => legal_run s' l | None => True end
  end.

Lemma run_ok l : forall s live p, inv s live -> rel s p -> legal_run s l ->
  exists s' o live', run s l = Some (s', o) /\ settle live o = Some live' /\ inv s' live' /\
    rel s' (fst (plain_run p l)) /\ committed o = snd (plain_run p l).
Proof.
  induction l as [|e l IH]; intros s live p I R L; cbn [run plain_run].
  - exists s, [], live. split; [reflexivity|]. split; [reflexivity|]. split; [exact I|]. split; [exact R|reflexivity].
  - destruct L as [L1 L2]. destruct (step_ok s live p e I R L1) as (s1 & o1 & l1 & E1 & S1 & I1 & R1 & C1). rewrite E1 in *.
    destruct (plain_step p e) as [p1 q1]. cbn [fst snd] in *.
    destruct (IH s1 l1 p1 I1 R1 L2) as (s2 & o2 & l2 & E2 & S2 & I2 & R2 & C2). rewrite E2. destruct (plain_run p1 l) as [p2 q2]. cbn [fst snd] in *.
    exists s2, (o1 ++ o2), l2. rewrite settle_app, S1, committed_app, C1, C2. auto.
Qed.
