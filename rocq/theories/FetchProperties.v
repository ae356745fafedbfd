(** * A follower fetching data from the originator: C123, C124. *)
From Coq Require Import Arith NArith List Bool Lia Permutation.
From Verif Require Import Base ReplDataModel FetchModel FetchSpec FetchProofs.
Import ListNotations.
Open Scope N_scope.

(** C123: answers, pushes, failures and time-outs in any order.  Nothing goes wrong, whatever was
    received is the originator's data at the request's own blocks, every request that was served has
    its data, and no other block of the drive changes. *)
Theorem c123_data_arrives q d s l :
  sound q -> Forall (genuine q d) l ->
  exists s', run q s l = Some s' /\
    (forall i, received s' i -> ~ received s i ->
       content (s_disk s') (q_local (q i)) = content d (q_remote (q i)) /\ written s' i) /\
    (forall i, received s i \/ Exists (served i) l -> received s' i) /\
    (forall a, (forall i, received s' i -> ~ received s i -> ~ In a (expand (q_local (q i)))) ->
       s_disk s' a = s_disk s a).
Proof.
  intros Hq F. destruct (run_good q d Hq s l s (good_refl q d s) F) as (s' & E & G & M & R).
  exists s'. split; [exact E|]. split; [apply (g_disk _ _ _ _ G)|]. split; [|apply (g_rest _ _ _ _ G)].
  intros i [H|H]; auto.
Qed.
Print Assumptions c123_data_arrives.

(** The batches of one fetch have every request that is not skipped, once and in order; a batch is one
    request or smaller than the limit; none is empty. *)
Theorem c123_batches q bs max bits l orig :
  (forall i, counted (q_remote (q i))) -> l <> [] -> (forall i, In i l -> q_server (q i) = orig) ->
  exists out, fetch q bs max bits l = Done out /\
    concat out = filter (fun i => negb (skipped (bits i))) l /\
    Forall (fun b => b <> [] /\ (length b = 1%nat \/ bytes q bs b < max)) out.
Proof.
  intros Hc Hl Ho. destruct (fetch_done q bs max bits l orig Hl Ho) as [out E].
  exists out. split; [exact E|]. apply (fetch_ok q bs max Hc) in E. exact E.
Qed.
Print Assumptions c123_batches.

(** What the originator sends is the content of every request of the batch, one after the other. *)
Theorem c123_answer q d b :
  (forall i, counted (q_remote (q i))) ->
  answer q d b = concat (map (fun i => content d (q_remote (q i))) b).
Proof.
  intros Hc. unfold answer. rewrite flat_map_concat_map. f_equal. apply map_ext.
  intros i. apply read_content, Hc.
Qed.
Print Assumptions c123_answer.

(** From one end to the other: the batches of a fetch are answered by the originator, in any order
    [out'] and among any other genuine events; then every request of the fetch that was not skipped
    has its data, and it is the originator's unless it was there before. *)
Theorem c123_fetch q d bs max s l orig out l' :
  sound q -> (forall i, expand (q_remote (q i)) <> []) ->
  l <> [] -> (forall i, In i l -> q_server (q i) = orig) ->
  fetch q bs max (s_bits s) l = Done out ->
  Forall (genuine q d) l' -> (forall b, In b out -> In (Answer b (answer q d b)) l') ->
  exists s', run q s l' = Some s' /\
    forall i, In i l -> skipped (s_bits s i) = false ->
      received s' i /\
      (~ received s i -> content (s_disk s') (q_local (q i)) = content d (q_remote (q i)) /\ written s' i).
Proof.
  intros Hq Hne Hl Ho Hf F Ha.
  destruct (c123_data_arrives q d s l' Hq F) as (s' & E & D & R & _).
  exists s'. split; [exact E|]. intros i Hi Hs.
  assert (Hr : received s' i).
  { apply R. right. destruct (fetch_ok q bs max (so_count _ Hq) _ _ _ Hf) as [C _].
    assert (Hin : In i (concat out)) by (rewrite C; apply filter_In; rewrite Hs; auto).
    apply in_concat in Hin. destruct Hin as (b & Hb & Hib).
    apply Exists_exists. exists (Answer b (answer q d b)). split; [auto|].
    split; [exact Hib|]. rewrite c123_answer by apply (so_count _ Hq). intros H0.
    apply concat_nil_Forall in H0. rewrite Forall_map, Forall_forall in H0. specialize (H0 i Hib).
    unfold content in H0. apply map_eq_nil in H0. exact (Hne i H0). }
  split; [exact Hr|]. auto.
Qed.
Print Assumptions c123_fetch.

(** Three requests on the originator's chunk 7, stored here in chunk 3 in other pieces; request 1 is
    given up on the way, request 2 has been pushed. *)
Definition ex_q (i : nat) : req :=
  let k := N.of_nat i in
  Req 9 (Id 7 [(10 * k, 2); (10 * k + 5, 1)]) (Id 3 [(3 * k, 1); (3 * k + 1, 2)]).
Definition ex_d (a : addr) : N := 1000 * fst a + snd a.
Definition ex_s : st := St (fun _ => 0) (fun _ => 2 ^ BLK_ALLOCATED) [].

Example c123_nonvacuous_sound : sound ex_q /\ (forall i, expand (q_remote (ex_q i)) <> []).
Proof.
  assert (El : forall i, expand (q_local (ex_q i)) = [(3, 3 * N.of_nat i + 0); (3, 3 * N.of_nat i + 1 + 0); (3, 3 * N.of_nat i + 1 + 1)])
    by reflexivity.
  assert (Er : forall i, expand (q_remote (ex_q i)) = [(7, 10 * N.of_nat i + 0); (7, 10 * N.of_nat i + 1); (7, 10 * N.of_nat i + 5 + 0)])
    by reflexivity.
  split; [constructor|].
  - intros i. unfold counted. rewrite Er. reflexivity.
  - intros i. rewrite El, Er. reflexivity.
  - intros i. rewrite El. repeat constructor; cbn [In]; intros H;
      repeat (destruct H as [H|H]; [injection H; lia|]); exact H.
  - intros i j a. rewrite !El. cbn [In]. intros H1 H2.
    assert (K : forall n m, (n, m) = a -> n = fst a /\ m = snd a) by (intros n m <-; auto).
    destruct H1 as [H1|[H1|[H1|[]]]], H2 as [H2|[H2|[H2|[]]]]; apply K in H1; apply K in H2; lia.
  - intros i. rewrite Er. discriminate.
Qed.

Definition ex_l : list ev :=
  [Push 2 (content ex_d (q_remote (ex_q 2))); GiveUp 1; Answer [2%nat] (answer ex_q ex_d [2%nat]);
   Fail [0%nat]; Answer [0%nat; 1%nat] (answer ex_q ex_d [0%nat; 1%nat])].
Example c123_nonvacuous :
  fetch ex_q 512 3200 (s_bits ex_s) [0%nat; 1%nat; 2%nat] = Done [[0%nat; 1%nat]; [2%nat]] /\
  Forall (genuine ex_q ex_d) ex_l /\
  match run ex_q ex_s ex_l with
  | Some s' => map (content (s_disk s')) (map (fun i => q_local (ex_q i)) [0%nat; 1%nat; 2%nat])
               = [[7000; 7001; 7005]; [7010; 7011; 7015]; [7020; 7021; 7025]]
  | None => False
  end.
Proof.
  split; [vm_compute; reflexivity|]. split; [|vm_compute; reflexivity].
  unfold ex_l. repeat (apply Forall_cons; [cbn [genuine]; try exact I; try reflexivity; try (right; vm_compute; reflexivity)|]).
  constructor.
Qed.

(** C124: a fetch asks only for what is still needed, and a request that was given up gets no data. *)
Definition needed (v : N) : Prop := has v DATA_RECEIVED = false /\ has v ERRORED = false.
Definition asks_only_needed : Prop := forall q bs max bits l out i,
  fetch q bs max bits l = Done out -> In i (concat out) -> needed (bits i).
Definition given_up_untouched : Prop := forall q d s l s' i a,
  sound q -> Forall (genuine q d) l -> run q s l = Some s' ->
  In i (s_freed s) -> ~ received s i -> In a (expand (q_local (q i))) -> s_disk s' a = s_disk s a.

(** Every request that has blocks is asked for, whatever else its state says. *)
Theorem c124_allocated_always_asked q bs max bits l out i :
  (forall i, counted (q_remote (q i))) ->
  fetch q bs max bits l = Done out -> In i l -> has (bits i) BLK_ALLOCATED = true -> In i (concat out).
Proof.
  intros Hc Hf Hi Hb. destruct (fetch_ok q bs max Hc _ _ _ Hf) as [C _]. rewrite C. apply filter_In.
  split; [exact Hi|]. destruct (skipped (bits i)) eqn:E; [|reflexivity]. exfalso.
  unfold skipped in E. apply orb_prop in E.
  destruct E as [E|E]; apply N.eqb_eq in E; rewrite E in Hb; vm_compute in Hb; discriminate.
Qed.
Print Assumptions c124_allocated_always_asked.

Theorem c124_only_needed_refuted : ~ asks_only_needed.
Proof.
  intros H.
  destruct (H ex_q 512 3200 (s_bits (give_up ex_s 0)) [0%nat] [[0%nat]] 0%nat) as [_ E].
  - vm_compute. reflexivity.
  - left. reflexivity.
  - vm_compute in E. discriminate.
Qed.
Print Assumptions c124_only_needed_refuted.

Theorem c124_given_up_untouched_refuted : ~ given_up_untouched.
Proof.
  intros H.
  assert (G : Forall (genuine ex_q ex_d) [Answer [0%nat] (answer ex_q ex_d [0%nat])]).
  { constructor; [|constructor]. right. vm_compute. reflexivity. }
  destruct (c123_data_arrives ex_q ex_d (give_up ex_s 0) _ (proj1 c123_nonvacuous_sound) G) as (s' & E & D & R & _).
  assert (N0 : ~ received (give_up ex_s 0) 0) by (intros X; vm_compute in X; discriminate).
  assert (R0 : received s' 0).
  { apply R. right. constructor. split; [left; reflexivity|]. vm_compute. discriminate. }
  destruct (D 0%nat R0 N0) as [C _].
  assert (X : s_disk s' (3, 0) = 7000).
  { apply (f_equal (hd 0)) in C. exact C. }
  assert (Hf : In 0%nat (s_freed (give_up ex_s 0))) by (vm_compute; auto).
  assert (Ha : In (3, 0) (expand (q_local (ex_q 0)))) by (vm_compute; auto).
  pose proof (H ex_q ex_d _ _ s' 0%nat (3, 0) (proj1 c123_nonvacuous_sound) G E Hf N0 Ha) as Y.
  rewrite X in Y. vm_compute in Y. discriminate.
Qed.
Print Assumptions c124_given_up_untouched_refuted.
