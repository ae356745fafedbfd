(** * C45: the index transaction journal round-trips. *)
From Coq Require Import ZArith NArith List Bool Arith Lia ZifyBool ZifyNat ZifyN.
From Verif Require Import ByteBase Base TxnModel TxnSpec TxnProofs.
Import ListNotations.
Local Open Scope nat_scope.

(** Whatever memory holds, no write leaves the buffer, and recovery for the same
    CP reads back the transactions in order; recovery for another CP ignores the
    journal. *)
Theorem c45_journal_roundtrip : forall junk cp l,
  l <> [] -> (- 2 ^ 63 <= cp < 2 ^ 63)%Z -> forallb txn_ok l = true ->
  (Z.of_nat (total l) < 2 ^ 32)%Z ->
  exists b, add_txns junk cp None l = Some (Some b) /\
    recover cp b = Some (Some (map expect l)) /\
    forall cp', cp' <> cp -> recover cp' b = Some None.
Proof.
  intros junk cp l Hne Hcp HF HT.
  destruct (journal_inv junk cp l Hne Hcp HF HT) as [b [e [E [J0 [J1 [J2 [J3 [J4 J5]]]]]]]].
  exists b. ands; [assumption| |].
  - unfold recover. rewrite J1, Z.eqb_refl, J2, Nat2N.id. rewrite (recs_dec _ _ _ _ J5 HF). reflexivity.
  - intros cp' Hne'. unfold recover. rewrite J1. destruct (Z.eqb_spec cp cp'); [congruence|reflexivity].
Qed.
Print Assumptions c45_journal_roundtrip.

(** A root change with a meta parent, a split whose child is its parent's only
    node, and a merge with freed nodes at level 3; enough records to make the
    buffer grow. *)
Definition ex_txns : list txn :=
  let nd i := mkBp i false (N.of_nat (1000 * i + 7)) (N.of_nat i) 3 in
  [ mkTxn 5 (Some (mkBp 1 true 0 0 0)) None [nd 9] [];
    mkTxn 5 (Some (nd 2)) (Some (nd 3)) [nd 4; nd 6] [];
    mkTxn 7 (Some (nd 2)) (Some (nd 2)) [nd 8] [nd 10];
    mkTxn 4294967295 (Some (nd 2)) (Some (nd 3)) (map nd (seq 20 40)) (map nd (seq 70 40)) ].

Example c45_case : forallb txn_ok ex_txns = true /\ (Z.of_nat (total ex_txns) < 2 ^ 32)%Z /\
  match add_txns (fun i => N.of_nat (i * 37 mod 256)) 12 None ex_txns with
  | Some (Some b) => recover 12 b = Some (Some (map expect ex_txns)) /\ length b = 1288
  | _ => False
  end.
Proof. split; [vm_compute; reflexivity|]. split; [vm_compute; reflexivity|]. vm_compute. split; reflexivity. Qed.

(** The bound of 255 nodes is needed: with 300 the record size is computed in a
    byte and the record is written beyond the buffer. *)
Example c45_limit : add_txns (fun _ => 0%N) 12 None
  [mkTxn 5 None None (map (fun i => mkBp i false (N.of_nat i) 1 0) (seq 1 300)) []] = None.
Proof. vm_compute. reflexivity. Qed.
