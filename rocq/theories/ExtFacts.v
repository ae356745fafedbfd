(** Facts about extents. *)
From Coq Require Import NArith ZArith List Lia Bool Permutation.
From Coq Require Import ZifyBool ZifyNat ZifyN.
From Verif Require Import Base ExtSpec.
Import ListNotations.
Local Open Scope N_scope.

Lemma holders_app : forall b l1 l2, holders b (l1 ++ l2) = (holders b l1 + holders b l2)%nat.
Proof. intros b l1 l2. unfold holders. now rewrite filter_app, app_length. Qed.

Lemma holders_cons : forall b x l, holders b (x :: l) = ((if inside b x then 1 else 0) + holders b l)%nat.
Proof. intros b x l. unfold holders. simpl. destruct (inside b x); reflexivity. Qed.

Lemma holders_perm : forall b l l', Permutation l l' -> holders b l = holders b l'.
Proof.
  intros b l l' H. unfold holders. induction H as [|x l l' H IH|x y l|l l' l'' H1 IH1 H2 IH2]; simpl.
  - reflexivity.
  - destruct (inside b x); simpl; lia.
  - destruct (inside b x), (inside b y); simpl; lia.
  - lia.
Qed.

Lemma holders_tiles : forall b l start len, tiles start len l ->
  holders b l = if inside b (start, len) then 1%nat else 0%nat.
Proof.
  intros b. induction l as [|x r IH]; cbn [tiles]; intros start len H.
  - subst len. unfold inside. simpl. destruct ((start <=? b) && (b <? start + 0)) eqn:E; [lia|reflexivity].
  - destruct H as [H1 [H2 [H3 H4]]]. rewrite holders_cons, (IH _ _ H4).
    unfold inside. cbn [fst snd]. rewrite H1.
    destruct ((start <=? b) && (b <? start + snd x)) eqn:E1;
    destruct ((start + snd x <=? b) && (b <? start + snd x + (len - snd x))) eqn:E2;
    destruct ((start <=? b) && (b <? start + len)) eqn:E3; try reflexivity; exfalso; lia.
Qed.

Lemma blocks_app : forall l1 l2, blocks (l1 ++ l2) = blocks l1 + blocks l2.
Proof. induction l1 as [|x l IH]; intros l2; simpl; [lia|]. rewrite IH. lia. Qed.

Lemma holders_nil : forall b, holders b [] = 0%nat.
Proof. reflexivity. Qed.

Lemma inside_split : forall b n k m, k <= m ->
  ((if inside b (n, k) then 1 else 0) + (if inside b (n + k, m - k)%N then 1 else 0) =
   (if inside b (n, m) then 1 else 0))%nat.
Proof.
  intros b n k m H. unfold inside. cbn [fst snd].
  destruct ((n <=? b) && (b <? n + k)) eqn:E1; destruct ((n + k <=? b) && (b <? n + k + (m - k))) eqn:E2;
  destruct ((n <=? b) && (b <? n + m)) eqn:E3; try reflexivity; exfalso; lia.
Qed.

Lemma tiles_app : forall l1 l2 s n1 n2, tiles s n1 l1 -> tiles (s + n1) n2 l2 -> tiles s (n1 + n2) (l1 ++ l2).
Proof.
  induction l1 as [|x l1 IH]; intros l2 s n1 n2 H1 H2; cbn [tiles app] in *.
  - subst n1. rewrite N.add_0_r in H2. exact H2.
  - destruct H1 as [A [B [C D]]]. ands; auto; [lia|].
    replace (n1 + n2 - snd x) with (n1 - snd x + n2) by lia. apply IH; [exact D|].
    replace (s + snd x + (n1 - snd x)) with (s + n1) by lia. exact H2.
Qed.

Lemma Forall_perm : forall A (P : A -> Prop) l l', Permutation l l' -> Forall P l -> Forall P l'.
Proof. intros A P l l' Hp Hf. rewrite Forall_forall in *. intros x Hx. apply Hf. now rewrite Hp. Qed.


Lemma overlap_iff : forall x y, overlap x y <->
  (0 < snd x /\ 0 < snd y /\ fst x < fst y + snd y /\ fst y < fst x + snd x).
Proof.
  intros [a n] [b m]. unfold overlap, inside. cbn [fst snd]. split.
  - intros [k [H1 H2]]. lia.
  - intros H. exists (N.max a b). lia.
Qed.
