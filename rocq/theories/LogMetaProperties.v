(** * Properties of the metadata of a log device (C136, C137). *)
From Coq Require Import ZArith Arith List Bool Lia.
From Verif Require Import Base LogMetaModel LogMetaSpec LogMetaProofs.
Import ListNotations.

(** C136: after any history of creating, removing and truncating log stores and of adding and
    dropping rollback records, with crashes, no access leaves its buffer; loading what is on the
    device gives every store that was there at the last write, by id and each once, with its
    first sequence number, and the rollback records; and an index is taken for rolled back just
    when a record says so.  For any sizes of headers and slots and any alignment. *)
Theorem c136_metadata : forall c l a, sane c -> changes none_yet l a ->
  exists m d, run c (start c) l = Some (m, d) /\
    (exists m' found, load d = Some (m', found) /\ lists found (a_dstores a) /\ m_rb m' = a_drecs a) /\
    (forall id i, rolled_back id i m = true <-> exists x y, In (id, (x, y)) (a_recs a) /\ (x <= i <= y)%Z).
Proof.
  intros c l a C X. destruct (rel_run c l _ _ _ C (rel_start c C) X) as ([m d] & E & R). exists m, d. split; [exact E|]. split.
  - destruct (restart_ok c d a (l_dsb _ _ _ R) (l_drsb _ _ _ R)) as (m' & found & E1 & E2 & E3 & _). eauto 6.
  - intros id i. unfold rolled_back. rewrite (l_rb _ _ _ R : m_rb m = a_recs a), existsb_exists. split.
    + intros ((j & (x & y)) & P & Q). cbn in Q. apply andb_prop in Q. destruct Q as [Q1 Q2]. apply andb_prop in Q2.
      apply Nat.eqb_eq in Q1. subst j. exists x, y. split; [auto|lia].
    + intros (x & y & P & Q). exists (id, (x, y)). split; [auto|]. cbn. rewrite Nat.eqb_refl. cbn. lia.
Qed.
Print Assumptions c136_metadata.
(** The id of a new store is the lowest that is free, and it is free. *)
Theorem c136_new_id : forall c l a m d junk, sane c -> changes none_yet l a -> run c (start c) l = Some (m, d) ->
  exists m' id, reserve c junk m = Some (m', id) /\ a_stores a id = None /\ forall i, i < id -> a_stores a i <> None.
Proof.
  intros c l a m d junk C X E. destruct (rel_run c l _ _ _ C (rel_start c C) X) as (s & E' & R). rewrite E in E'. injection E' as <-.
  destruct (reserve_ok c junk m _ C (l_sb _ _ _ R) (l_ids _ _ _ R)) as (m' & id & F & G1 & G2 & _). eauto.
Qed.
Print Assumptions c136_new_id.

(** Buffers of whole 64 bytes.  Three stores; the last one is removed and its slot stays behind;
    rollbacks; crashes at three places. *)
Definition c0 : cfg := Cfg 52 8 16 20 60 64.
Definition case136 : list ev :=
  [Reserve 7 true; Reserve 9 true; AddRecord 1 10 20 true; Reserve 0 true; AddRecord 2 15 30 true; Update 5 1 40 false; Unreserve 8 2 false;
   Persist; Reserve 3 false; Update 3 0 12 false; CrashInPersist; Unreserve 4 0 true; DropUpto 20 false; Crash].
(** For the example: the changes as a function. *)
Fixpoint lo (f : nat -> option Z) (i fuel : nat) : option nat :=
  match fuel with O => None | S k => match f i with None => Some i | Some _ => lo f (S i) k end end.
Lemma lo_ok f : forall fuel i id, lo f i fuel = Some id -> f id = None /\ forall j, i <= j < id -> f j <> None.
Proof.
  induction fuel as [|k IH]; intros i id E; cbn in E; [discriminate|]. destruct (f i) as [v|] eqn:F.
  - destruct (IH _ _ E) as [A B]. split; [auto|]. intros j Hj. destruct (Nat.eq_dec j i) as [->|]; [congruence|apply B; lia].
  - injection E as <-. split; [auto|lia].
Qed.
Definition there (f : nat -> option Z) (i : nat) : bool := match f i with Some _ => true | None => false end.
Definition chg (a : abs) (e : ev) : option abs :=
  match e with
  | Reserve _ now => match lo (a_stores a) 0 20 with
                     | Some id => let f := put (a_stores a) id (Some 0%Z) in Some (Abs f (a_recs a) (if_now now f (a_dstores a)) (a_drecs a))
                     | None => None
                     end
  | Unreserve _ id now => if there (a_stores a) id then
      let f := put (a_stores a) id None in let p := fun r => Nat.eqb (fst r) id in
      Some (Abs f (kept p (a_recs a)) (if_now now f (a_dstores a)) (if_now (now && removed p (a_recs a)) (kept p (a_recs a)) (a_drecs a))) else None
  | Update _ id v now => if there (a_stores a) id && (0 <=? v)%Z then
      let f := put (a_stores a) id (Some v) in Some (Abs f (a_recs a) (if_now now f (a_dstores a)) (a_drecs a)) else None
  | AddRecord id x y now => let r := a_recs a ++ [(id, (x, y))] in Some (Abs (a_stores a) r (a_dstores a) (if_now now r (a_drecs a)))
  | DropUpto u now => let p := fun r : nat * (Z * Z) => (snd (snd r) <=? u)%Z in
      Some (Abs (a_stores a) (kept p (a_recs a)) (a_dstores a) (if_now (now && removed p (a_recs a)) (kept p (a_recs a)) (a_drecs a)))
  | Persist => Some (Abs (a_stores a) (a_recs a) (a_stores a) (a_recs a))
  | Crash => Some (Abs (a_dstores a) (a_drecs a) (a_dstores a) (a_drecs a))
  | CrashInUnreserve id => if there (a_stores a) id then
      let p := fun r => Nat.eqb (fst r) id in
      let d := if_now (removed p (a_recs a)) (kept p (a_recs a)) (a_drecs a) in Some (Abs (a_dstores a) d (a_dstores a) d) else None
  | CrashInPersist => Some (Abs (a_stores a) (a_drecs a) (a_stores a) (a_drecs a))
  end.
Lemma chg_ok a e b : chg a e = Some b -> change a e b.
Proof.
  destruct e; cbn [chg]; intros E.
  - destruct (lo (a_stores a) 0 20) as [id|] eqn:L; [|discriminate]. injection E as <-. destruct (lo_ok _ _ _ _ L) as [A B].
    apply ch_reserve; [exact A|]. intros i Hi. apply B. lia.
  - unfold there in E. destruct (a_stores a id) eqn:F; [|discriminate]. injection E as <-. apply ch_unreserve. congruence.
  - unfold there in E. destruct (a_stores a id) eqn:F; [|discriminate]. cbn [andb] in E. destruct (Z.leb_spec 0 v); [|discriminate].
    injection E as <-. apply ch_update; [congruence|auto].
  - injection E as <-. apply ch_add.
  - injection E as <-. apply ch_drop.
  - injection E as <-. apply ch_persist.
  - injection E as <-. apply ch_crash.
  - unfold there in E. destruct (a_stores a id) eqn:F; [|discriminate]. injection E as <-. apply ch_crash_unreserve. congruence.
  - injection E as <-. apply ch_crash_persist.
Qed.
Fixpoint chgs (a : abs) (l : list ev) : option abs :=
  match l with [] => Some a | e :: t => match chg a e with Some b => chgs b t | None => None end end.
Lemma chgs_ok : forall l a b, chgs a l = Some b -> changes a l b.
Proof.
  induction l as [|e l IH]; intros a b E; cbn in E; [injection E as <-; constructor|].
  destruct (chg a e) as [x|] eqn:F; [|discriminate]. apply chs_cons with x; [now apply chg_ok|auto].
Qed.
Example case136_changes : exists a, changes none_yet case136 a /\
  a_dstores a 0 = None /\ a_dstores a 1 = Some 40%Z /\ a_dstores a 2 = Some 0%Z /\ a_dstores a 3 = None /\ a_drecs a = [(1, (10%Z, 20%Z))].
Proof.
  assert (H : option_map (fun a => (a_dstores a 0, a_dstores a 1, a_dstores a 2, a_dstores a 3, a_drecs a)) (chgs none_yet case136) =
              Some (None, Some 40%Z, Some 0%Z, None, [(1, (10%Z, 20%Z))])) by (vm_compute; reflexivity).
  destruct (chgs none_yet case136) as [a|] eqn:E; [|discriminate]. exists a. split; [now apply chgs_ok|].
  cbn [option_map] in H. injection H as -> -> -> -> ->. ands; reflexivity.
Qed.
Example c136_case : sane c0 /\
  (exists m d, run c0 (start c0) (firstn 8 case136) = Some (m, d) /\ s_slots (m_sb m) = [0; 40; 0; -1; -1; -1; -1; -1; -1]%Z /\ s_num (m_sb m) = 2) /\
  exists m d, run c0 (start c0) case136 = Some (m, d) /\ exists m', load d = Some (m', [(1, 40%Z); (2, 0%Z)]).
Proof.
  split; [unfold sane; cbn; lia|]. split.
  - eexists. eexists. split; [vm_compute; reflexivity|]. split; reflexivity.
  - eexists. eexists. split; [vm_compute; reflexivity|]. eexists. vm_compute. reflexivity.
Qed.

(** C137: a crash while a log device is created or destroyed does not keep the store from
    starting again.  False: the two superblocks are written one after the other and removed one
    after the other; with only the first on the device, the second is used without ever having
    been loaded. *)
Theorem c137_create_refuted : forall c, exists b, create_disk c 1 = Disk (Some b) None /\ load (create_disk c 1) = None.
Proof.
  intros c. eexists. split; [reflexivity|]. unfold load, create_disk. cbn [d_sb d_rsb Nat.leb].
  destruct (scan (s_slots (m_sb (fresh c))) 0 (s_num (m_sb (fresh c)))); reflexivity.
Qed.
Print Assumptions c137_create_refuted.
Theorem c137_destroy_refuted : forall c l m d, run c (start c) l = Some (m, d) -> load (destroy_disk d 1) = None.
Proof.
  intros c l m d _. unfold load, destroy_disk. cbn [d_sb d_rsb Nat.leb]. destruct (d_sb d) as [b|]; [|reflexivity].
  destruct (scan (s_slots b) 0 (s_num b)); reflexivity.
Qed.
Print Assumptions c137_destroy_refuted.
(** It starts after a crash before or after, and in creation that leaves nothing or all. *)
Theorem c137_whole_partial : forall c, sane c -> d_sb (create_disk c 0) = None /\ exists m, load (create_disk c 2) = Some (m, []).
Proof.
  intros c C. split; [reflexivity|].
  destruct (restart_ok c (create_disk c 2) none_yet (l_dsb _ _ _ (rel_start c C)) (l_drsb _ _ _ (rel_start c C))) as (m & l & E & [_ H] & _).
  exists m. rewrite E. destruct l as [|[i v] l]; [reflexivity|].
  pose proof (proj1 (H i v) (or_introl eq_refl)) as Q. cbn in Q. discriminate.
Qed.
Print Assumptions c137_whole_partial.
