(** * Properties of the journal entry of a replicated write (C48, C90, C91, C95). *)
From Coq Require Import NArith ZArith List Bool Lia.
From Verif Require Import Base ByteBase BlkIdModel BlkIdSpec ReplEntryModel ReplEntrySpec ReplEntryProofs.
Import ListNotations.

(** C48: a solo device recovers header, key and ids of every write whose ids have one piece
    each; a raft replica recovers every field of a write with at most one id of any number of
    pieces. *)
Theorem c48_solo_entry : forall q z, req_ok q -> server_ok z -> q_code q = code_linked ->
  Forall (an_id 1) (q_ids q) -> (N.of_nat (length (q_ids q)) < 2 ^ 28)%N ->
  solo_decode (create_entry q z) = Done (q_hdr q, q_key q, q_ids q).
Proof. intros q z H Hz El Hi Hn. rewrite (solo_ok q z H Hz Hi Hn). unfold linked. rewrite El. reflexivity. Qed.
Print Assumptions c48_solo_entry.
Theorem c48_solo_inlined : forall q z, req_ok q -> server_ok z -> q_code q = code_inlined -> q_ids q = [] ->
  solo_decode (create_entry q z) = Done (q_hdr q, q_key q, []).
Proof.
  intros q z H Hz El Hi. rewrite (solo_ok q z H Hz); [|rewrite Hi; constructor|rewrite Hi; reflexivity].
  unfold linked. rewrite El. reflexivity.
Qed.
Print Assumptions c48_solo_inlined.
Theorem c48_raft_entry : forall q z n m, req_ok q -> server_ok z -> q_code q = code_linked ->
  q_ids q = [m] -> an_id n m ->
  raft_decode (create_entry q z) = Done (Entry code_linked (q_trace q) z (q_dsn q) (q_hdr q) (q_key q) (Some m)).
Proof.
  intros q z n m H Hz El Hi Hm. rewrite (raft_ok q z n H Hz); [|rewrite Hi; cbn; lia|rewrite Hi; repeat constructor; exact Hm].
  unfold id_of_req, linked. rewrite El, Hi. reflexivity.
Qed.
Print Assumptions c48_raft_entry.
(** Entries without data: any other code, or no id. *)
Theorem c48_raft_no_data : forall q z, req_ok q -> server_ok z -> q_ids q = [] ->
  raft_decode (create_entry q z) = Done (Entry (q_code q) (q_trace q) z (q_dsn q) (q_hdr q) (q_key q) None).
Proof.
  intros q z H Hz Hi. rewrite (raft_ok q z 1 H Hz); [|rewrite Hi; cbn; lia|rewrite Hi; constructor].
  unfold id_of_req. rewrite Hi. destruct (linked q); reflexivity.
Qed.
Print Assumptions c48_raft_no_data.

Definition idof (ps : list extent) : multi := match build multi_empty ps with Some m => m | None => multi_empty end.
Definition scattered_b (c : N) (ps : list extent) : bool :=
  ((c <? 65536) && forallb (fun e => (chunk e <? 65536) && (start e <? 2147483648) && (count e <? 65536) && (chunk e =? c) && (0 <? count e)) ps)%N.
Lemma idof_ok c ps n : scattered_b c ps = true -> length ps = n -> (1 <= n <= 6)%nat ->
  match build multi_empty ps with Some _ => true | None => false end = true -> an_id n (idof ps).
Proof.
  intros Hs Hl Hn Hb. exists c, ps. unfold idof. destruct (build multi_empty ps) as [m|]; [|discriminate].
  ands; try lia; [|reflexivity]. unfold scattered_b in Hs. apply andb_true_iff in Hs. destruct Hs as [H1 H2]. split; [lia|].
  apply Forall_forall. intros e He. rewrite forallb_forall in H2. specialize (H2 e He). unfold fits. lia.
Qed.
Definition one (b : N) : multi := idof [Extent 7 b 4].
Definition two (b : N) : multi := idof [Extent 7 b 3; Extent 7 (b + 100) 1].
Lemma one_ok b : (b < 2147483648)%N -> an_id 1 (one b).
Proof. intros H. apply (idof_ok 7); try lia; [|reflexivity|reflexivity]. cbn [scattered_b forallb chunk start count]. unfold scattered_b. cbn [forallb chunk start count]. rewrite (proj2 (N.ltb_lt _ _) H). reflexivity. Qed.
Lemma two_ok : an_id 2 (two 2000).
Proof. apply (idof_ok 7); try reflexivity; lia. Qed.
Definition rq (ids : list multi) : req := Req code_linked 77 5 [1; 2; 3]%N [255; 0]%N ids.
Lemma rq_ok ids : req_ok (rq ids).
Proof. unfold req_ok, rq; cbn [q_code q_trace q_dsn q_hdr q_key]. ands; try reflexivity. cbn. repeat constructor. Qed.
Example c48_case :
  solo_decode (create_entry (rq [one 10; one 500000000]) (-3)) = Done ([1; 2; 3]%N, [255; 0]%N, [one 10; one 500000000]) /\
  raft_decode (create_entry (rq [two 2000]) (-3)) = Done (Entry 0 77 (-3) 5 [1; 2; 3]%N [255; 0]%N (Some (two 2000))) /\
  pieces_of (two 2000) = [Extent 7 2000 3; Extent 7 2100 1].
Proof.
  split; [|split; [|vm_compute; reflexivity]].
  - apply (c48_solo_entry (rq _)); [apply rq_ok|unfold server_ok; lia|reflexivity| |reflexivity].
    repeat constructor; apply one_ok; reflexivity.
  - apply (c48_raft_entry (rq _) _ 2 (two 2000)); [apply rq_ok|unfold server_ok; lia|reflexivity|reflexivity|exact two_ok].
Qed.

(** C95: a solo device recovers the ids of every write.  False for an id of two pieces: it comes
    back as two ids, the second made of the piece list. *)
Theorem c95_pieces_refuted : exists q, req_ok q /\ q_code q = code_linked /\ Forall (an_id 2) (q_ids q) /\
  exists h k ids, solo_decode (create_entry q 1) = Done (h, k, ids) /\
    length ids = 2%nat /\ length (q_ids q) = 1%nat /\
    flat_map pieces_of ids <> flat_map pieces_of (q_ids q).
Proof.
  exists (rq [two 2000]). split; [apply rq_ok|]. split; [reflexivity|]. split; [repeat constructor; exact two_ok|].
  eexists. eexists. eexists. split; [vm_compute; reflexivity|]. split; [reflexivity|]. split; [reflexivity|].
  vm_compute. discriminate.
Qed.
Print Assumptions c95_pieces_refuted.
(** With three pieces the bytes do not even divide into ids. *)
Theorem c95_overrun_refuted : exists q, req_ok q /\ q_code q = code_linked /\ Forall (an_id 3) (q_ids q) /\
  solo_decode (create_entry q 1) = Ub.
Proof.
  exists (rq [idof [Extent 7 10 1; Extent 7 20 1; Extent 7 30 1]]). split; [apply rq_ok|]. split; [reflexivity|].
  split; [|vm_compute; reflexivity]. repeat constructor. apply (idof_ok 7); try reflexivity. lia.
Qed.
Print Assumptions c95_overrun_refuted.

(** C90: after a follower has put its own id into an entry, the entry is the one that records
    its own id and server.  It holds when both ids have the same number of pieces. *)
Theorem c90_localize_partial : forall q z theirs mine n zs, req_ok q -> server_ok z -> q_code q = code_linked ->
  q_ids q = [theirs] -> an_id n theirs -> an_id n mine ->
  localize (create_entry q z) mine zs =
    Done (create_entry (Req (q_code q) (q_trace q) (q_dsn q) (q_hdr q) (q_key q) [mine]) zs).
Proof.
  intros q z theirs mine n zs H Hz El Ei Ht Hm. apply (localize_ok q z theirs mine n zs H Hz); try assumption.
  unfold linked. rewrite El. reflexivity.
Qed.
Print Assumptions c90_localize_partial.
Example c90_case : exists b, localize (create_entry (rq [two 2000]) 3) (idof [Extent 9 4 2; Extent 9 0 2]) 8 = Done b /\
  raft_decode b = Done (Entry 0 77 8 5 [1; 2; 3]%N [255; 0]%N (Some (idof [Extent 9 4 2; Extent 9 0 2]))).
Proof.
  assert (M : an_id 2 (idof [Extent 9 4 2; Extent 9 0 2])) by (apply (idof_ok 9); try reflexivity; lia).
  eexists. split.
  - apply (c90_localize_partial (rq [two 2000]) 3 (two 2000) _ 2); [apply rq_ok|unfold server_ok; lia|reflexivity|reflexivity|exact two_ok|exact M].
  - apply (c48_raft_entry (rq [idof [Extent 9 4 2; Extent 9 0 2]]) 8 2); [apply rq_ok|unfold server_ok; lia|reflexivity|reflexivity|exact M].
Qed.
(** False when the follower's id is longer: it is written behind the end of the buffer. *)
Theorem c90_longer_refuted : exists q theirs mine, req_ok q /\ q_code q = code_linked /\ q_ids q = [theirs] /\
  an_id 1 theirs /\ an_id 2 mine /\ localize (create_entry q 1) mine 2 = Ub.
Proof.
  exists (rq [one 10]), (one 10), (two 2000). split; [apply rq_ok|]. split; [reflexivity|]. split; [reflexivity|].
  split; [apply one_ok; reflexivity|]. split; [exact two_ok|]. vm_compute. reflexivity.
Qed.
Print Assumptions c90_longer_refuted.
(** And when it is shorter: the leader's other pieces stay in the entry, and recovery takes them
    for its own. *)
Theorem c90_shorter_refuted : exists q theirs mine b m, req_ok q /\ q_code q = code_linked /\ q_ids q = [theirs] /\
  an_id 2 theirs /\ an_id 1 mine /\ localize (create_entry q 1) mine 2 = Done b /\
  (exists e, raft_decode b = Done e /\ n_id e = Some m) /\
  In (Extent 7 2100 1) (pieces_of m) /\ ~ In (Extent 7 2100 1) (pieces_of mine).
Proof.
  exists (rq [two 2000]), (two 2000), (one 10). eexists. eexists. split; [apply rq_ok|]. split; [reflexivity|]. split; [reflexivity|].
  split; [exact two_ok|]. split; [apply one_ok; reflexivity|]. split; [vm_compute; reflexivity|].
  split; [eexists; split; vm_compute; reflexivity|]. split; [vm_compute; auto|]. vm_compute. intros [H|[]]. discriminate.
Qed.
Print Assumptions c90_shorter_refuted.

(** C91: a raft write whose data was given several ids recovers all of them.  False: the value
    is read as one id, whose piece count and pieces are the bytes of the second id. *)
Theorem c91_overrun_refuted : exists q, req_ok q /\ q_code q = code_linked /\ Forall (an_id 1) (q_ids q) /\
  raft_decode (create_entry q 1) = Ub.
Proof.
  exists (rq [one 10; one 500]). split; [apply rq_ok|]. split; [reflexivity|]. split; [|vm_compute; reflexivity].
  repeat constructor; apply one_ok; reflexivity.
Qed.
Print Assumptions c91_overrun_refuted.
Theorem c91_wrong_refuted : exists q e m, req_ok q /\ q_code q = code_linked /\ Forall (an_id 1) (q_ids q) /\
  raft_decode (create_entry q 1) = Done e /\ n_id e = Some m /\
  pieces_of m <> flat_map pieces_of (q_ids q) /\ length (pieces_of m) = 2%nat.
Proof.
  exists (rq [one 10; one 0]). eexists. eexists. split; [apply rq_ok|]. split; [reflexivity|].
  split; [repeat constructor; apply one_ok; reflexivity|]. split; [vm_compute; reflexivity|]. split; [reflexivity|].
  vm_compute. split; [discriminate|reflexivity].
Qed.
Print Assumptions c91_wrong_refuted.
