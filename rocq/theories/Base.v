(** * Common definitions: little-endian byte strings.

    The C++ code stores packed structs by copying their memory image
    ([#pragma pack(1)], [r_cast]) on a little-endian machine (x86-64 is the only
    platform HomeStore builds for).  [le_bytes k n] is the image of an unsigned
    integer of [k] bytes; a byte is an [N]. *)
From Coq Require Import NArith ZArith List Lia.
From Coq Require Import ZifyBool ZifyNat ZifyN.
Import ListNotations.
Local Open Scope N_scope.

Ltac Zify.zify_post_hook ::= Z.div_mod_to_equations.

Fixpoint le_bytes (k : nat) (n : N) : list N :=
  match k with
  | O => []
  | S k' => (n mod 256) :: le_bytes k' (n / 256)
  end.

Fixpoint le_val (l : list N) : N :=
  match l with
  | [] => 0
  | b :: l' => b + 256 * le_val l'
  end.

Lemma le_bytes_length : forall k n, length (le_bytes k n) = k.
Proof. induction k as [|k IH]; intros n; simpl; [reflexivity|]. now rewrite IH. Qed.

Lemma le_val_bytes : forall k n, le_val (le_bytes k n) = n mod 256 ^ N.of_nat k.
Proof.
  induction k as [|k IH]; intros n.
  - simpl. now rewrite N.mod_1_r.
  - cbn [le_bytes le_val]. rewrite IH.
    rewrite Nat2N.inj_succ, N.pow_succ_r'.
    assert (H256 : 256 <> 0) by lia.
    assert (Hp : 256 ^ N.of_nat k <> 0) by (apply N.pow_nonzero; lia).
    rewrite N.mod_mul_r by assumption. reflexivity.
Qed.

Lemma le_val_bytes_small : forall k n, n < 256 ^ N.of_nat k -> le_val (le_bytes k n) = n.
Proof. intros k n H. rewrite le_val_bytes. now apply N.mod_small. Qed.

Lemma le_bytes_val : forall l, Forall (fun b => b < 256) l -> le_bytes (length l) (le_val l) = l.
Proof.
  induction l as [|b l IH]; intros Hall; [reflexivity|].
  inversion Hall as [|x y Hb Hl]; subst.
  cbn [length le_bytes le_val]. f_equal.
  - replace (b + 256 * le_val l) with (b + le_val l * 256) by lia.
    rewrite N.mod_add by lia. now apply N.mod_small.
  - replace (b + 256 * le_val l) with (b + le_val l * 256) by lia.
    rewrite N.div_add by lia. rewrite N.div_small by assumption. rewrite N.add_0_l.
    now apply IH.
Qed.

Lemma le_bytes_bound : forall k n, Forall (fun b => b < 256) (le_bytes k n).
Proof.
  induction k as [|k IH]; intros n; constructor; [|apply IH].
  apply N.mod_lt. lia.
Qed.

Lemma le_val_bound : forall l, Forall (fun b => b < 256) l -> le_val l < 256 ^ N.of_nat (length l).
Proof.
  induction l as [|b l IH]; intros Hall; [simpl; lia|].
  inversion Hall as [|x y Hb Hl]; subst. specialize (IH Hl).
  cbn [length le_val]. rewrite Nat2N.inj_succ, N.pow_succ_r'. nia.
Qed.

Lemma firstn_app_exact : forall (A : Type) (l1 l2 : list A) n, n = length l1 -> firstn n (l1 ++ l2) = l1.
Proof. intros A l1 l2 n ->. rewrite firstn_app, Nat.sub_diag, firstn_all. simpl. apply app_nil_r. Qed.

Lemma skipn_app_exact : forall (A : Type) (l1 l2 : list A) n, n = length l1 -> skipn n (l1 ++ l2) = l2.
Proof. intros A l1 l2 n ->. rewrite skipn_app, Nat.sub_diag, skipn_all. reflexivity. Qed.

(** Split only syntactic conjunctions. *)
Ltac ands := repeat match goal with |- _ /\ _ => split end.
