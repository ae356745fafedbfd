(** * The life of a follower's requests: C131, C132. *)
From Coq Require Import NArith Arith List Bool Lia.
From Verif Require Import Base ReqLifeModel ReqLifeSpec ReqLifeProofs.
Import ListNotations.

(** C131: no step aborts; what is committed is what is in the log; every allocation is settled once; and one that
    is not settled belongs to a request that is still found by its key. *)
Theorem c131_requests l : legal_run init l ->
  exists s o live, run init l = Some (s, o) /\ settle [] o = Some live /\ NoDup live /\
    committed o = snd (plain_run (Plain [] 0) l) /\
    (forall r, In r live <-> exists k, s_key s k = Some r /\ s_blks s r = true) /\
    (forall i k, s_done s < i <= s_len s -> s_log s i = Some k ->
       exists r, s_lsn s i = Some r /\ s_key s k = Some r /\ In r live).
Proof.
  intros L. destruct (run_ok l init [] (Plain [] 0) inv_init) as (s & o & live & E & S1 & I1 & R1 & C1); [|exact L|].
  - split; [reflexivity|]. split; [reflexivity|]. cbn. intros i Hi. lia.
  - exists s, o, live. split; [exact E|]. split; [exact S1|]. split; [apply I1|]. split; [exact C1|]. split; [apply I1|].
    intros i k Hi Hk. destruct (lsn_of s live i k I1 Hi Hk) as (r & A & _ & K & B & _). exists r. split; [exact A|]. split; [exact K|].
    apply (i_live _ _ I1). eauto.
Qed.
Print Assumptions c131_requests.

(** If the log is committed and every key has been dealt with, nothing is left allocated. *)
Theorem c131_nothing_left l s o : legal_run init l -> run init l = Some (s, o) -> (forall k, s_key s k = None) -> settle [] o = Some [].
Proof.
  intros L E H. destruct (c131_requests l L) as (s' & o' & live & E' & S' & _ & _ & Hl & _). rewrite E in E'. injection E' as <- <-.
  rewrite S'. destruct live as [|r live]; [reflexivity|]. destruct (proj1 (Hl r) (or_introl eq_refl)) as (k & K & _). now rewrite H in K.
Qed.
Print Assumptions c131_nothing_left.

(** A checker for the conditions. *)
Definition in_logb (s : st) (lo : nat) (k : N) : bool :=
  existsb (fun i => match s_log s i with Some k' => (k' =? k)%N | None => false end) (seq (S lo) (s_len s - lo)).
Definition legalb (s : st) (e : ev) : bool :=
  match e with
  | Append (Some k) ok => negb (in_logb s (s_done s) k) && (ok || match s_key s k with Some r => s_blks s r | None => false end)
  | Overwrite n => (s_done s <=? n) && (n <=? s_len s)
  | Commit => s_done s <? s_flushed s
  | Error k => negb (in_logb s (s_done s) k)
  | Collect k => negb (in_logb s (s_flushed s) k)
  | Clear _ => s_done s =? s_len s
  | _ => true
  end.
Fixpoint legal_runb (s : st) (l : list ev) : bool :=
  match l with
  | [] => true
  | e :: l => legalb s e && match step s e with Some (s', _) => legal_runb s' l | None => true end
  end.
Lemma in_logb_no s lo k : in_logb s lo k = false -> forall i, lo < i <= s_len s -> s_log s i <> Some k.
Proof.
  intros H i Hi E. assert (X : in_logb s lo k = true); [|congruence]. apply existsb_exists. exists i. split; [apply in_seq; lia|].
  rewrite E. apply N.eqb_refl.
Qed.
Lemma legalb_ok s e : legalb s e = true -> legal s e.
Proof.
  destruct e as [k ok|[k|] ok| |n| |k|k|l]; cbn [legalb legal]; auto; intros H.
  - apply andb_true_iff in H as [A B]. apply negb_true_iff in A. split.
    + intros (i & Hi & E). now apply (in_logb_no _ _ _ A i).
    + apply orb_true_iff in B as [->|B]; [now left|]. right. destruct (s_key s k) as [r|]; [eauto|discriminate].
  - apply andb_true_iff in H as [A B]. apply Nat.leb_le in A, B. lia.
  - now apply Nat.ltb_lt.
  - apply negb_true_iff in H. intros (i & Hi & E). now apply (in_logb_no _ _ _ H i).
  - apply negb_true_iff in H. intros i Hi. exact (in_logb_no _ _ _ H i Hi).
  - now apply Nat.eqb_eq.
Qed.
Lemma legal_runb_ok l : forall s, legal_runb s l = true -> legal_run s l.
Proof.
  induction l as [|e l IH]; intros s H; cbn in *; [exact I|]. apply andb_true_iff in H as [A B]. split; [now apply legalb_ok|].
  destruct (step s e) as [[s' o]|]; [now apply IH|exact I].
Qed.

(** Keys 1 to 6; the allocation for 4 fails at first; 3 is overwritten by 5; 2 comes again after its commit and is
    collected; 6 fails before it is in the log. *)
Definition life : list ev :=
  [Receive 1 true; Receive 2 true; Append (Some 1%N) true; Append None true; Append (Some 2%N) true; Append (Some 3%N) true; Flush;
   Commit; Commit; Receive 4 false; Commit; Receive 2 true; Receive 5 true; Receive 4 true; Overwrite 3; Append (Some 5%N) true;
   Collect 2; Flush; Append (Some 4%N) true; Collect 5; Flush; Commit; Receive 6 true; Error 6; Commit; Receive 6 true; Clear [6%N]]%N.
Example c131_nonvacuous : legal_run init life /\
  option_map snd (run init life) =
    Some [OAlloc 0; OAlloc 1; OAlloc 2; OCommit 1 1 0; OCommit 3 2 1; OAlloc 4; OAlloc 5; OAlloc 3; OFree 2; OFree 4; OCommit 4 5 5;
          OAlloc 6; OFree 6; OCommit 5 4 3; OAlloc 7; OFree 7] /\
  snd (plain_run (Plain [] 0) life) = [(1, 1%N); (3, 2%N); (4, 5%N); (5, 4%N)] /\
  (forall s o, run init life = Some (s, o) -> settle [] o = Some []).
Proof.
  split; [apply legal_runb_ok; vm_compute; reflexivity|]. split; [vm_compute; reflexivity|]. split; [vm_compute; reflexivity|].
  intros s o E. assert (X : option_map snd (run init life) = Some o) by now rewrite E.
  assert (Y : match option_map snd (run init life) with Some o => settle [] o | None => None end = Some []) by (vm_compute; reflexivity).
  rewrite X in Y. exact Y.
Qed.

(** C132: the same without relying on requests in the log being flushed before they expire. *)
Fixpoint legal_gc (s : st) (l : list ev) : Prop :=
  match l with
  | [] => True
  | e :: l => (match e with Collect _ => True | _ => legal s e end) /\ match step s e with Some (s', _) => legal_gc s' l | None => True end
  end.
Definition gc_safe : Prop := forall l s o, legal_gc init l -> run init l = Some (s, o) -> settle [] o <> None.
(** The request expires between being put into the log and the flush (say while waiting for its data): its blocks
    are freed, and the entry naming them is committed. *)
Definition expired : list ev := [Receive 1 true; Append (Some 1%N) true; Collect 1; Flush; Commit]%N.
Theorem c132_gc_refuted : ~ gc_safe.
Proof.
  intros H. destruct (run init expired) as [[s o]|] eqn:E.
  - assert (X : option_map snd (run init expired) = Some o) by now rewrite E. apply (H expired s o); [|exact E|].
    + assert (Hb : legal_runb init [Receive 1 true; Append (Some 1%N) true]%N = true) by (vm_compute; reflexivity).
      apply legal_runb_ok in Hb. cbn [legal_run] in Hb. cbn [legal_gc expired].
      destruct Hb as [A Hb]. split; [exact A|]. destruct (step init (Receive 1 true)) as [[s1 o1]|] eqn:E1; [|exact I].
      destruct Hb as [B _]. split; [exact B|]. destruct (step s1 (Append (Some 1%N) true)) as [[s2 o2]|] eqn:E2; [|exact I].
      split; [exact I|]. destruct (step s2 (Collect 1)) as [[s3 o3]|] eqn:E3; [|exact I].
      split; [exact I|]. destruct (step s3 Flush) as [[s4 o4]|] eqn:E4; [|exact I].
      split; [|destruct (step s4 Commit) as [[? ?]|]; exact I]. apply Nat.ltb_lt.
      assert (Y : match run init [Receive 1 true; Append (Some 1%N) true; Collect 1; Flush]%N with Some (s, _) => s_done s <? s_flushed s | None => false end = true)
        by (vm_compute; reflexivity).
      cbn [run] in Y. rewrite E1, E2, E3, E4 in Y. exact Y.
    + assert (Y : match option_map snd (run init expired) with Some o => settle [] o | None => None end = None) by (vm_compute; reflexivity).
      rewrite X in Y. exact Y.
  - assert (Y : option_map snd (run init expired) <> None) by (vm_compute; discriminate). rewrite E in Y. now apply Y.
Qed.
Print Assumptions c132_gc_refuted.
