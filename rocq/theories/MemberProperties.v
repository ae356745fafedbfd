(** Replacing members of a raft group (C113-C119). *)
From Coq Require Import ZArith NArith List Bool Arith Lia.
From Coq Require Import ZifyBool ZifyNat ZifyN.
From Verif Require Import MemberModel MemberSpec MemberProofs.
Import ListNotations.
Local Open Scope N_scope.

(** ** C113: a replacement can be tried again from any point *)

(** The first part: whatever is called on whatever replicas and however raft
    answers, the servers are those of one of the four stages. *)
Theorem c113_stages : forall laggy id out inn g o calls,
  id <> [] -> (length id <= 63)%nat -> out <> inn -> out <> 0 -> inn <> 0 ->
  find (g_cfg g) out = Some o -> m_learner o = false -> find (g_cfg g) inn = None -> g_task g = no_task ->
  let g' := run laggy id out inn g calls in
  let l := servers (g_cfg g) in
  (In (servers (g_cfg g')) [l; demoted out l; joined out inn (m_prio o) l; replaced out inn (m_prio o) l]) /\
  (forall lead, get_status g' id out inn lead = SCompleted -> servers (g_cfg g') = replaced out inn (m_prio o) l) /\
  (forall me q v, snd (start_replace laggy me g' id out inn q v) = Ok ->
     let l' := servers (g_cfg (fst (start_replace laggy me g' id out inn q v))) in
     l' = joined out inn (m_prio o) l \/ l' = replaced out inn (m_prio o) l).
Proof.
  intros laggy id out inn g o calls Hid Hlen Hne Hout Hin Eo El Ei Ht g' l.
  assert (Ho : sfind l out = Some (out, false, m_prio o)).
  { unfold l. rewrite find_servers, Eo. cbn. unfold server_of. rewrite El. now rewrite (proj2 (find_in _ _ _ Eo)). }
  assert (Hi : sfind l inn = None) by (unfold l; now rewrite find_servers, Ei).
  assert (I : inv id out inn (m_prio o) l g') by (apply run_inv; auto; now apply I0).
  split.
  { cbn [In]. destruct I as [H _|H _|H _|H _]; rewrite H; auto. }
  split.
  - intros lead HS. unfold get_status in HS. destruct lead; cbn [negb] in HS; [|discriminate].
    destruct (no_id (t_id (g_task g'))); [|destruct (negb _); discriminate].
    destruct (has (g_cfg g') out) eqn:Eh; cbn [negb andb] in HS; [discriminate|].
    rewrite has_servers in Eh.
    destruct I as [H _|H _|H _|H _]; [| | |exact H]; rewrite H in Eh; exfalso.
    + now rewrite Ho in Eh.
    + now rewrite (at1_out out (m_prio o) l Ho) in Eh.
    + now rewrite (at2_out out inn (m_prio o) l Ho) in Eh.
  - intros me q v HOk. cbv zeta.
    destruct (start_ok laggy id out inn (m_prio o) l Hlen Hne Hout Hin Ho Hi g' me q v I) as [_ HH].
    destruct (HH HOk) as [[H1 _]|H1]; auto.
Qed.

(** The second part: after anything that happened, one start that raft lets
    through, and one check on a leader once the new member has caught up, finish
    it. *)
Definition smooth (v : env) : Prop :=
  e_lead1 v = true /\ e_lead2 v = true /\ e_lead3 v = true /\
  e_a1 v = Done /\ e_a2 v = Done /\ e_a3 v = Done.

Theorem c113_completes : forall laggy id out inn g o calls,
  id <> [] -> (length id <= 63)%nat -> out <> inn -> out <> 0 -> inn <> 0 ->
  find (g_cfg g) out = Some o -> m_learner o = false -> find (g_cfg g) inn = None -> g_task g = no_task ->
  forall me1 q v1 f cm st me2 v2,
  me1 <> out -> 1 <= q -> smooth v1 -> me2 <> out -> smooth v2 -> f out <= f inn + laggy ->
  let g1 := run laggy id out inn g calls in
  let g2 := run laggy id out inn g (calls ++ [Start me1 q v1; Progress f cm st; Check me2 v2]) in
  snd (start_replace laggy me1 g1 id out inn q v1) = Ok /\
  servers (g_cfg g2) = replaced out inn (m_prio o) (servers (g_cfg g)) /\ g_task g2 = no_task /\
  get_status g2 id out inn true = SCompleted.
Proof.
  intros laggy id out inn g o calls Hid Hlen Hne Hout Hin Eo El Ei Ht me1 q v1 f cm st me2 v2
    Hm1 Hq S1 Hm2 S2 Hf g1 g2.
  set (l := servers (g_cfg g)).
  assert (Ho : sfind l out = Some (out, false, m_prio o)).
  { unfold l. rewrite find_servers, Eo. cbn. unfold server_of. rewrite El. now rewrite (proj2 (find_in _ _ _ Eo)). }
  assert (Hi : sfind l inn = None) by (unfold l; now rewrite find_servers, Ei).
  assert (I : inv id out inn (m_prio o) l g1) by (apply run_inv; auto; now apply I0).
  destruct S1 as [L1 [L2 [L3 [A1 [A2 A3]]]]]. destruct S2 as [M1 [M2 [M3 [B1 [B2 B3]]]]].
  assert (HOk : snd (start_replace laggy me1 g1 id out inn q v1) = Ok).
  { eapply start_live; eauto. }
  split; [exact HOk|].
  assert (Eg2 : g2 = fst (monitor laggy me2 (progress (fst (start_replace laggy me1 g1 id out inn q v1)) f cm st) v2)).
  { unfold g2, run. rewrite fold_left_app. reflexivity. }
  destruct (start_ok laggy id out inn (m_prio o) l Hlen Hne Hout Hin Ho Hi g1 me1 q v1 I) as [I' HH].
  specialize (HH HOk). cbv zeta in HH.
  set (ga := fst (start_replace laggy me1 g1 id out inn q v1)) in *. clearbody ga.
  set (gb := progress ga f cm st) in *.
  assert (HB : (servers (g_cfg gb) = joined out inn (m_prio o) l /\ g_task gb = mine id out inn) \/
    (servers (g_cfg gb) = replaced out inn (m_prio o) l /\ (g_task gb = no_task \/ g_task gb = mine id out inn))).
  { unfold gb. rewrite servers_progress. change (g_task (progress ga f cm st)) with (g_task ga).
    destruct HH as [HH|HH]; [now left|]. right. split; [exact HH|].
    destruct I' as [H1 H2|H1 H2|H1 H2|H1 H2]; auto. }
  assert (HL : forall i, lsn_of (g_cfg gb) i = if has (g_cfg ga) i then f i else 0).
  { intros i. unfold lsn_of, has, gb, progress, find. cbn [g_cfg]. clear. induction (g_cfg ga) as [|m c IH]; [reflexivity|].
    cbn [map List.find m_id]. destruct (N.eqb_spec (m_id m) i) as [E|E]; [cbn; now rewrite E|exact IH]. }
  assert (HLe : lsn_of (g_cfg gb) out <= lsn_of (g_cfg gb) inn + laggy).
  { rewrite !HL. assert (Hh : has (g_cfg ga) inn = true).
    { destruct HH as [[HH _]|HH]; [eapply has_of; [exact HH|now apply at2_in]|eapply has_of; [exact HH|now apply at3_in]]. }
    rewrite Hh. destruct (has (g_cfg ga) out); lia. }
  pose proof (monitor_live laggy id out inn (m_prio o) l) as ML.
  assert (HM : servers (g_cfg g2) = replaced out inn (m_prio o) l /\ g_task g2 = no_task).
  { rewrite Eg2. apply ML; auto. }
  destruct HM as [HM1 HM2]. split; [exact HM1|]. split; [exact HM2|].
  unfold get_status. rewrite HM2. cbn [negb t_id no_task no_id].
  rewrite !has_servers, HM1, (at3_out id out inn (m_prio o) l), (at3_in out inn (m_prio o) l) by assumption. reflexivity.
Qed.

(** And another replacement does not get in between. *)
Theorem c113_other_refused : forall laggy me g id out inn q v,
  t_id (g_task g) <> [] -> id <> t_id (g_task g) ->
  let r := start_replace laggy me g id out inn q v in
  snd r <> Ok /\ g_cfg (fst r) = g_cfg g /\ g_task (fst r) = g_task g.
Proof.
  intros laggy me g id out inn q v Ht Hi r. subst r. unfold start_replace.
  destruct (me =? out); [cbn; split; [discriminate|auto]|].
  set (g1 := if 1 <=? q then reset_quorum g q else g).
  assert (E1 : g_cfg g1 = g_cfg g /\ g_task g1 = g_task g) by (unfold g1; destruct (1 <=? q); auto).
  destruct E1 as [E1 E2]. destruct (e_lead1 v); cbn [negb]; [|cbn; split; [discriminate|auto]].
  rewrite E2. destruct (t_id (g_task g)) as [|x t] eqn:E; [congruence|]. cbn [no_id negb andb].
  rewrite id_eqb_ne by congruence. cbn. split; [discriminate|auto].
Qed.

Print Assumptions c113_stages.
Print Assumptions c113_completes.
Print Assumptions c113_other_refused.

(** Members 1 (the leader), 2 and 3; 3 makes way for 4.  The first attempt is
    answered with a timeout though the flip commits, the second loses the answer
    of the add, the leader moves to 2, a check there finds 4 behind; then all
    goes well. *)
Definition ex_g : grp :=
  Grp [Mem 1 false 100 50; Mem 2 false 80 50; Mem 3 false 60 20] no_task 0 50 1.
Definition ex_id : list N := [116; 49].
Definition all_well : env := Env true true true Done Done Done 0.
Definition ex_calls : list call :=
  [Start 1 0 (Env true true true Late Done Done 0);
   Start 1 1 (Env true true true Done Done Late 0);
   Check 2 (Env true true true Done Done Done 0)].
Example c113_example :
  smooth all_well /\
  map m_id (g_cfg (run 10 ex_id 3 4 ex_g ex_calls)) = [1; 2; 3; 4] /\
  g_task (run 10 ex_id 3 4 ex_g ex_calls) = Task ex_id 3 4 /\
  let g2 := run 10 ex_id 3 4 ex_g (ex_calls ++ [Start 2 1 all_well; Progress (fun _ => 60) 60 1; Check 2 all_well]) in
  servers (g_cfg g2) = [(1, false, 100%Z); (2, false, 80%Z); (4, false, 60%Z)] /\
  get_status g2 ex_id 3 4 true = SCompleted /\
  snd (start_replace 10 1 (run 10 ex_id 3 4 ex_g ex_calls) [116; 50] 2 5 0 all_well) = Mismatch.
Proof. unfold smooth. repeat split; reflexivity. Qed.

(** ** C114: a start that checks the quorum leaves a majority at every step *)

(** Who is known to keep up: the leader, and the others but the two of the
    exchange whose log is not too far behind. *)
Definition keeps_up (laggy me : N) (g : grp) (out inn : N) (m : member) : bool :=
  negb (m_id m =? out) && negb (m_id m =? inn) && ((m_id m =? me) || (least_active laggy g <=? m_lsn m)).

Theorem c114_majority : forall laggy me g id out inn v,
  out <> inn -> me <> inn -> NoDup (map m_id (g_cfg g)) -> has (g_cfg g) me = true ->
  (forall m, In m (g_cfg g) -> m_learner m = true -> m_id m = out) ->
  (forall o, find (g_cfg g) out = Some o -> m_learner o = false \/ has (g_cfg g) inn = true \/
     Nat.odd (length (g_cfg g)) = true) ->
  let r := start_replace laggy me g id out inn 0 v in
  servers (g_cfg (fst r)) <> servers (g_cfg g) ->
  let P := keeps_up laggy me g out inn in
  majority P (g_cfg g) /\ majority P (set_learner (g_cfg g) out true) /\ majority P (g_cfg (fst r)).
Proof.
  intros laggy me g id out inn v Hoi Hmi HN Hme Hl Hodd r Hch P. subst r.
  unfold start_replace in *. destruct (N.eqb_spec me out) as [->|Hmo]; [exfalso; now apply Hch|].
  change (1 <=? 0) with false in *. cbv zeta iota in *.
  destruct (e_lead1 v); cbn [negb] in *; [|exfalso; now apply Hch].
  destruct (negb (no_id (t_id (g_task g))) && negb (id_eqb (t_id (g_task g)) id)); [exfalso; now apply Hch|].
  destruct (find (g_cfg g) out) as [o|] eqn:Eo; [|destruct (has (g_cfg g) inn); exfalso; now apply Hch].
  change (0 =? 0) with true in *. rewrite andb_true_r in *.
  destruct (N.ltb_spec (active_num laggy me g out inn) (commit_quorum_of (g_cfg g))) as [HQ|HQ];
    [exfalso; now apply Hch|].
  assert (Hm : exists m, find (g_cfg g) me = Some m).
  { unfold has in Hme. destruct (find (g_cfg g) me) as [m|]; [now exists m|discriminate]. }
  assert (Hodd' : forall m, find (g_cfg g) out = Some m -> m_learner m = true -> has (g_cfg g) inn = false ->
    Nat.odd (length (g_cfg g)) = true).
  { intros m E1 E2 E3. rewrite Eo in E1. injection E1 as <-. destruct (Hodd o eq_refl) as [H|[H|H]]; congruence. }
  destruct (good_majority laggy me g out inn Hoi Hmo Hmi HN Hm Hl HQ Hodd' o Eo) as [G1 [G2 G3]].
  change (good laggy me g out inn) with P in *.
  split; [exact G1|]. split; [exact G2|]. clear Hch.
  assert (HF : let c := g_cfg (fst (do_flip g out true true (e_lead2 v) (e_a1 v))) in
    c = g_cfg g \/ c = set_learner (g_cfg g) out true).
  { cbv zeta. unfold do_flip. destruct (e_lead2 v); cbn [negb]; [|now left]. rewrite Eo.
    destruct (Bool.eqb (m_learner o) true).
    - rewrite Eo. destruct (m_learner o); now left.
    - destruct (e_a1 v); cbn [applied with_cfg g_cfg]; [|now left|now right].
      match goal with |- context [find ?c out] => destruct (find c out) as [m'|] end; [destruct (m_learner m')|]; now right. }

  assert (HF2 : snd (do_flip g out true true (e_lead2 v) (e_a1 v)) = Ok ->
    g_cfg (fst (do_flip g out true true (e_lead2 v) (e_a1 v))) = set_learner (g_cfg g) out true).
  { unfold do_flip. destruct (e_lead2 v); cbn [negb]; [|discriminate]. rewrite Eo.
    destruct (Bool.eqb (m_learner o) true) eqn:Eb.
    - intros _. assert (El : m_learner o = true) by (destruct (m_learner o); [reflexivity|discriminate]).
      rewrite Eo, El. cbn [fst]. unfold set_learner. rewrite <- (map_id (g_cfg g)) at 1. apply map_ext_in.
      intros m Im. destruct (N.eqb_spec (m_id m) out) as [E|E]; [|reflexivity].
      destruct (find_in _ _ _ Eo) as [Io Eio]. assert (m = o).
      { assert (EE : m_id m = m_id o) by congruence. clear -HN Im Io EE.
        induction (g_cfg g) as [|x c IH]; [destruct Im|]. cbn in HN. inversion_clear HN as [|? ? H1 H2].
        destruct Im as [->|Im], Io as [->|Io]; [reflexivity| | |auto].
        - exfalso. apply H1. rewrite EE. now apply in_map.
        - exfalso. apply H1. rewrite <- EE. now apply in_map. }
      subst m. destruct o as [a b c d]. cbn in *. subst. reflexivity.
    - destruct (e_a1 v); cbn [applied with_cfg g_cfg]; [|discriminate|discriminate]. intros _.
      match goal with |- context [find ?c out] => destruct (find c out) as [m'|] end; [destruct (m_learner m')|]; reflexivity. }
  destruct (do_flip g out true true (e_lead2 v) (e_a1 v)) as [g1 e1]. cbn [fst snd] in *.
  assert (HM1 : majority P (g_cfg g1)) by (destruct HF as [->| ->]; assumption).
  destruct e1; try exact HM1. specialize (HF2 eq_refl).
  unfold propose. destruct (e_a2 v); cbn [applied]; try exact HM1.
  unfold do_add. destruct (e_lead3 v); cbn [negb]; [|exact HM1].
  change (g_cfg (commit_start id out inn g1)) with (g_cfg g1).
  assert (HH : has (g_cfg g1) inn = has (g_cfg g) inn).
  { rewrite HF2, !has_servers, servers_set_learner, sfind_demoted. now destruct (sfind _ inn). }
  rewrite HH. destruct (has (g_cfg g) inn) eqn:Ei; [exact HM1|].
  destruct (e_a3 v); cbn [applied fst reset_quorum g_cfg with_cfg]; try exact HM1;
    rewrite HF2; now apply G3.
Qed.

Print Assumptions c114_majority.

(** Five members, two of them down: 5 makes way for 6 and three of the five
    that then vote still keep up. *)
Definition ex5 : grp :=
  Grp [Mem 1 false 0 50; Mem 2 false 0 50; Mem 3 false 0 48; Mem 4 false 0 3; Mem 5 false 0 3] no_task 0 50 1.
Example c114_example :
  let r := start_replace 10 1 ex5 ex_id 5 6 0 all_well in
  snd r = Ok /\ length (filter voter (g_cfg (fst r))) = 5%nat /\
  length (filter (keeps_up 10 1 ex5 5 6) (filter voter (g_cfg (fst r)))) = 3%nat /\
  snd (start_replace 10 1 (Grp (g_cfg ex5) no_task 0 59 1) ex_id 5 6 0 all_well) = QuorumNotMet.
Proof. repeat split; reflexivity. Qed.

(** ** C115: the same for every group *)

(** It does not hold: learners that keep up are counted as if they voted ... *)
Theorem c115_learner_counted_refuted : exists laggy me g id out inn v,
  out <> inn /\ me <> inn /\ NoDup (map m_id (g_cfg g)) /\ has (g_cfg g) me = true /\
  snd (start_replace laggy me g id out inn 0 v) = Ok /\
  servers (g_cfg (fst (start_replace laggy me g id out inn 0 v))) <> servers (g_cfg g) /\
  ~ majority (keeps_up laggy me g out inn) (g_cfg g) /\
  ~ majority (keeps_up laggy me g out inn) (g_cfg (fst (start_replace laggy me g id out inn 0 v))).
Proof.
  exists 10, 1, (Grp [Mem 1 false 0 50; Mem 2 false 0 3; Mem 3 true 0 50; Mem 4 false 0 50] no_task 0 50 1),
    ex_id, 4, 5, all_well.
  repeat split; try reflexivity; try lia; try discriminate.
  - cbn. repeat (constructor; [cbn; intuition lia|]). constructor.
  - vm_compute. lia.
  - vm_compute. lia.
Qed.

(** ... and a second try adds a voter that the count did not see. *)
Theorem c115_retry_refuted : exists laggy me g id out inn v1 v2,
  out <> inn /\ me <> inn /\ NoDup (map m_id (g_cfg g)) /\ has (g_cfg g) me = true /\
  (forall m, In m (g_cfg g) -> m_learner m = false) /\ g_task g = no_task /\
  let g1 := fst (start_replace laggy me g id out inn 0 v1) in
  let g2 := progress g1 (fun i => if i =? 3 then 0 else 50) 50 1 in
  snd (start_replace laggy me g2 id out inn 0 v2) = Ok /\
  majority (keeps_up laggy me g2 out inn) (g_cfg g2) /\
  ~ majority (keeps_up laggy me g2 out inn) (g_cfg (fst (start_replace laggy me g2 id out inn 0 v2))).
Proof.
  exists 10, 1, (Grp [Mem 1 false 0 50; Mem 2 false 0 50; Mem 3 false 0 50; Mem 4 false 0 50] no_task 0 50 1),
    ex_id, 4, 5, (Env true true true Late Done Done 0), all_well.
  split; [lia|]. split; [lia|].
  split; [cbn; repeat (constructor; [cbn; intuition lia|]); constructor|].
  split; [reflexivity|].
  split; [cbn; intuition (subst; reflexivity)|].
  split; [reflexivity|]. cbv zeta.
  split; [reflexivity|]. split; vm_compute; lia.
Qed.

Print Assumptions c115_learner_counted_refuted.
Print Assumptions c115_retry_refuted.

(** ** C116: the quorum size a caller asks for does not outlive the call *)

Theorem c116_restored_partial : forall laggy me g v,
  (forall out q, g_quorum (fst (complete_replace me g out q v)) = 0) /\
  (g_quorum g = 0 -> g_quorum (fst (monitor laggy me g v)) = 0) /\
  (forall i q b, g_quorum (fst (remove_member me g i q b v)) = 0) /\
  (forall i q, g_quorum g = 0 -> g_quorum (fst (clean_task g i q v)) = 0) /\
  (forall id out inn q, g_quorum g = 0 -> q = 0 \/ (e_lead1 v = true /\ has (g_cfg g) out = true) ->
     g_quorum (fst (start_replace laggy me g id out inn q v)) = 0) /\
  (forall i t q b, g_quorum g = 0 -> q = 0 \/ snd (flip_learner g i t q b v) <> Ok ->
     g_quorum (fst (flip_learner g i t q b v)) = 0).
Proof.
  intros laggy me g v.
  assert (HC : forall out q, g_quorum (fst (complete_replace me g out q v)) = 0).
  { intros out q. unfold complete_replace. destruct (do_remove _ _ out true _ _) as [g1 e1].
    destruct e1; try reflexivity. }
  split; [exact HC|]. split.
  { intros H0. unfold monitor. cbv zeta. repeat (match goal with |- context [if ?b then _ else _] => destruct b end;
      try exact H0). apply HC. }
  split.
  { intros i q b. unfold remove_member. destruct (do_remove _ _ i b _ _) as [g1 e1]. destruct e1; reflexivity. }
  split.
  { intros i q H0. unfold clean_task. destruct (negb (e_lead1 v)); [exact H0|].
    destruct (no_id _); [exact H0|]. destruct (negb (id_eqb _ _)); [exact H0|]. reflexivity. }
  split.
  { intros id out inn q H0 HQ. unfold start_replace. destruct (me =? out); [exact H0|].
    set (g1 := if 1 <=? q then reset_quorum g q else g).
    assert (E1 : g_cfg g1 = g_cfg g) by (unfold g1; destruct (1 <=? q); reflexivity).
    assert (HQ' : g_quorum g1 = 0 \/ (e_lead1 v = true /\ has (g_cfg g1) out = true)).
    { rewrite E1. destruct HQ as [->|HQ]; [left; exact H0|right; exact HQ]. }
    clearbody g1. clear -HQ'. destruct (e_lead1 v); cbn [negb].
    2: { destruct HQ' as [H|[H _]]; [exact H|discriminate]. }
    destruct (negb (no_id _) && _); [reflexivity|].
    destruct (find (g_cfg g1) out) as [m|] eqn:Em.
    - destruct (_ && (q =? 0)); [reflexivity|].
      destruct (do_flip _ _ _ _ _ _) as [g2 e2]. destruct e2; try reflexivity.
      destruct (propose _ _ _) as [g3 e3]. destruct e3; try reflexivity.
      destruct (do_add _ _ _ _ _ _) as [g4 e4]. destruct e4; reflexivity.
    - destruct (has (g_cfg g1) inn); [|reflexivity]. destruct HQ' as [H|[_ H]]; [exact H|].
      unfold has in H. now rewrite Em in H. }
  intros i t q b H0 HQ. unfold flip_learner in *.
  set (g1 := if 1 <=? q then reset_quorum g q else g) in *.
  assert (HG : q = 0 -> g_quorum g1 = 0) by (intros ->; exact H0). clearbody g1.
  assert (HD : g_quorum (fst (do_flip g1 i t b (e_lead1 v) (e_a1 v))) = g_quorum g1).
  { unfold do_flip. destruct (e_lead1 v); [|reflexivity]. cbn [negb]. destruct (find (g_cfg g1) i) as [m|]; [|reflexivity].
    destruct (Bool.eqb (m_learner m) t); [|destruct (e_a1 v); cbn [applied]];
      try reflexivity; (destruct b; [|reflexivity]);
      match goal with |- context [find ?c i] => destruct (find c i) as [m'|] end; try reflexivity;
      destruct (m_learner m'); reflexivity. }
  destruct (do_flip g1 i t b (e_lead1 v) (e_a1 v)) as [g2 e2]. cbn [fst snd] in *.
  destruct e2; try reflexivity. destruct HQ as [HQ|HQ]; [|now elim HQ].
  cbn [fst]. rewrite HD. auto.
Qed.

(** A start that finds the exchange done, a flip that succeeds, and any start on
    a follower leave the size in place, after which this replica, should it
    lead, commits alone. *)
Theorem c116_done_refuted : exists laggy me g id out inn v,
  g_quorum g = 0 /\ snd (start_replace laggy me g id out inn 1 v) = Ok /\
  g_quorum (fst (start_replace laggy me g id out inn 1 v)) = 1.
Proof.
  exists 10, 1, (Grp [Mem 1 false 0 50; Mem 2 false 0 50; Mem 4 false 0 50] no_task 0 50 1), ex_id, 3, 4, all_well.
  repeat split; reflexivity.
Qed.
Theorem c116_flip_refuted : exists g i v,
  g_quorum g = 0 /\ snd (flip_learner g i true 1 true v) = Ok /\ g_quorum (fst (flip_learner g i true 1 true v)) = 1.
Proof. exists ex_g, 3, all_well. repeat split; reflexivity. Qed.
Theorem c116_follower_refuted : exists laggy me g id out inn v,
  g_quorum g = 0 /\ snd (start_replace laggy me g id out inn 1 v) = NotLeader /\
  g_quorum (fst (start_replace laggy me g id out inn 1 v)) = 1.
Proof.
  exists 10, 2, ex_g, ex_id, 3, 4, (Env false false false Done Done Done 0).
  repeat split; reflexivity.
Qed.

Print Assumptions c116_restored_partial.
Print Assumptions c116_done_refuted.
Print Assumptions c116_flip_refuted.
Print Assumptions c116_follower_refuted.

Example c116_example :
  snd (start_replace 10 1 ex_g ex_id 3 4 1 all_well) = Ok /\ has (g_cfg ex_g) 3 = true /\
  g_quorum (fst (start_replace 10 1 ex_g ex_id 3 4 1 all_well)) = 0.
Proof. repeat split; reflexivity. Qed.

(** ** C117: a verified flip reports success exactly when the flag is as asked *)

Lemma find_set_learner : forall c i b m, find c i = Some m ->
  find (set_learner c i b) i = Some (Mem i b (m_prio m) (m_lsn m)).
Proof.
  intros c i b m. unfold find, set_learner. induction c as [|x c IH]; [discriminate|]. cbn.
  destruct (N.eqb_spec (m_id x) i) as [E|E]; cbn.
  - intros H. injection H as <-. now rewrite N.eqb_refl.
  - replace (m_id x =? i) with false by lia. exact IH.
Qed.

Theorem c117_flip_partial : forall g i target q verify v,
  (* setting the flag, or not asking for verification *)
  target = true \/ verify = false ->
  (snd (flip_learner g i target q verify v) = Ok ->
   exists m, find (g_cfg (fst (flip_learner g i target q verify v))) i = Some m /\ m_learner m = target) /\
  (forall m, e_lead1 v = true -> e_a1 v = Done -> find (g_cfg g) i = Some m ->
   snd (flip_learner g i target q verify v) = Ok).
Proof.
  intros g i target q verify v HT. unfold flip_learner.
  set (g1 := if 1 <=? q then reset_quorum g q else g).
  assert (E1 : g_cfg g1 = g_cfg g) by (unfold g1; destruct (1 <=? q); reflexivity). rewrite <- E1. clearbody g1.
  clear g E1. rename g1 into g.
  unfold do_flip. destruct (e_lead1 v); cbn [negb]; [|split; [discriminate|congruence]].
  destruct (find (g_cfg g) i) as [m|] eqn:Em; [|split; [discriminate|congruence]].
  destruct (Bool.eqb (m_learner m) target) eqn:Eb.
  - apply Bool.eqb_prop in Eb. destruct verify.
    + destruct HT as [->|HT]; [|discriminate]. rewrite Em, Eb. cbn [fst snd]. split; [|auto].
      intros _. exists m. auto.
    + cbn [fst snd]. split; [|auto]. intros _. exists m. auto.
  - pose proof (find_set_learner _ _ target _ Em) as HS.
    destruct (e_a1 v); cbn [applied g_cfg with_cfg]; [|split; [discriminate|congruence]|split; [discriminate|congruence]].
    destruct verify.
    + destruct HT as [->|HT]; [|discriminate]. rewrite HS. cbn [m_learner fst snd g_cfg with_cfg]. split; [|auto].
      intros _. eexists. split; [exact HS|reflexivity].
    + cbn [fst snd g_cfg with_cfg]. split; [|auto]. intros _. eexists. split; [exact HS|reflexivity].
Qed.

(** Taking the flag off with verification never reports success. *)
Theorem c117_clear_refuted :
  (forall g i q v, snd (flip_learner g i false q true v) <> Ok) /\
  exists g i v, snd (flip_learner g i false 0 true v) = Retry /\
    find (g_cfg g) i = Some (Mem i true 60 20) /\
    find (g_cfg (fst (flip_learner g i false 0 true v))) i = Some (Mem i false 60 20).
Proof.
  split.
  - intros g i q v. unfold flip_learner. set (g1 := if 1 <=? q then reset_quorum g q else g). clearbody g1.
    unfold do_flip. destruct (e_lead1 v); cbn [negb]; [|discriminate].
    destruct (find (g_cfg g1) i) as [m|] eqn:Em; [|discriminate].
    destruct (Bool.eqb (m_learner m) false) eqn:Eb.
    + apply Bool.eqb_prop in Eb. rewrite Em, Eb. discriminate.
    + destruct (e_a1 v); cbn [applied g_cfg with_cfg]; [|discriminate|discriminate].
      rewrite (find_set_learner _ _ false _ Em). discriminate.
  - exists (Grp [Mem 1 false 100 50; Mem 3 true 60 20] no_task 0 50 1), 3, all_well. repeat split; reflexivity.
Qed.

Print Assumptions c117_flip_partial.
Print Assumptions c117_clear_refuted.

Example c117_example :
  snd (flip_learner ex_g 3 true 0 true all_well) = Ok /\
  find (g_cfg (fst (flip_learner ex_g 3 true 0 true all_well))) 3 = Some (Mem 3 true 60 20).
Proof. repeat split; reflexivity. Qed.

(** ** C118: the old member goes only when the new one is up to date *)

(** What the check does ensure: the new one is a member, and not far behind the
    old one as the leader knows it. *)
Theorem c118_removal_partial : forall laggy me g v,
  has (g_cfg g) (t_out (g_task g)) = true ->
  has (g_cfg (fst (monitor laggy me g v))) (t_out (g_task g)) = false ->
  exists i o, find (g_cfg g) (t_in (g_task g)) = Some i /\ find (g_cfg g) (t_out (g_task g)) = Some o /\
    m_lsn o <= m_lsn i + laggy.
Proof.
  intros laggy me g v Ho Hg. unfold monitor in Hg. cbv zeta in Hg.
  destruct (negb (e_lead1 v)); [cbn in Hg; congruence|].
  destruct (_ || _); [cbn in Hg; congruence|].
  destruct (has (g_cfg g) (t_in (g_task g))) eqn:Ei; cbn [negb] in Hg; [|cbn [fst] in Hg; congruence].
  destruct (N.leb_spec (lsn_of (g_cfg g) (t_out (g_task g))) (lsn_of (g_cfg g) (t_in (g_task g)) + laggy)) as [HL|HL];
    cbn [negb] in Hg; [|cbn in Hg; congruence].
  unfold lsn_of in HL. unfold has in Ho, Ei.
  destruct (find (g_cfg g) (t_out (g_task g))) as [o|]; [|discriminate].
  destruct (find (g_cfg g) (t_in (g_task g))) as [i|]; [|discriminate].
  exists i, o. auto.
Qed.

(** A dead old member is an easy mark: with a group far ahead the exchange ends
    while the new member holds nothing, and one of the two that remain must not
    fail. *)
Theorem c118_up_to_date_refuted : exists laggy me g v,
  has (g_cfg g) (t_out (g_task g)) = true /\
  has (g_cfg (fst (monitor laggy me g v))) (t_out (g_task g)) = false /\
  exists i, find (g_cfg g) (t_in (g_task g)) = Some i /\ m_lsn i = 0 /\
    m_lsn i + 1000 * laggy <= g_commit g /\ m_lsn i < least_active laggy g.
Proof.
  exists 10, 1, (Grp [Mem 1 false 0 50000; Mem 2 false 0 50000; Mem 3 true 0 7; Mem 4 false 0 0]
    (Task ex_id 3 4) 0 50000 40000), all_well.
  split; [reflexivity|]. split; [reflexivity|]. eexists. repeat split; try reflexivity; vm_compute; discriminate.
Qed.

Print Assumptions c118_removal_partial.
Print Assumptions c118_up_to_date_refuted.

Example c118_example :
  let g := Grp [Mem 1 false 0 50; Mem 3 true 0 45; Mem 4 false 0 40] (Task ex_id 3 4) 0 50 1 in
  has (g_cfg (fst (monitor 10 1 g all_well))) 3 = false /\
  has (g_cfg (fst (monitor 4 1 g all_well))) 3 = true.
Proof. repeat split; reflexivity. Qed.

(** ** C119: a task is known by the id it was started with *)

Theorem c119_id_partial : forall laggy me g id out inn q v,
  g_task g = no_task -> id <> [] -> (length id <= 63)%nat ->
  g_task (fst (start_replace laggy me g id out inn q v)) <> no_task ->
  get_status (fst (start_replace laggy me g id out inn q v)) id out inn true = SInProgress /\
  forall me' q' v', snd (start_replace laggy me' (fst (start_replace laggy me g id out inn q v)) id out inn q' v') <> Mismatch.
Proof.
  intros laggy me g id out inn q v Ht Hid Hlen Hc.
  assert (HT : g_task (fst (start_replace laggy me g id out inn q v)) = Task id out inn).
  { revert Hc. unfold start_replace. destruct (me =? out); [let H := fresh in intros H; exfalso; now apply H|].
    set (g1 := if 1 <=? q then reset_quorum g q else g).
    assert (E1 : g_task g1 = no_task) by (unfold g1; destruct (1 <=? q); exact Ht). clearbody g1.
    assert (EC : ctx_id id = id) by now apply ctx_id_short.
    destruct (negb (e_lead1 v)); [let H := fresh in intros H; exfalso; now apply H|]. destruct (_ && _); [let H := fresh in intros H; exfalso; now apply H|].
    destruct (find (g_cfg g1) out) as [m|]; [|destruct (has _ inn); let H := fresh in intros H; exfalso; now apply H].
    destruct (_ && _); [let H := fresh in intros H; exfalso; now apply H|].
    assert (HF : g_task (fst (do_flip g1 out true true (e_lead2 v) (e_a1 v))) = no_task).
    { unfold do_flip. destruct (e_lead2 v); [|exact E1]. cbn [negb]. destruct (find (g_cfg g1) out) as [m'|]; [|exact E1].
      destruct (Bool.eqb _ _); [|destruct (e_a1 v); cbn [applied]]; try exact E1;
        match goal with |- context [find ?c out] => destruct (find c out) as [m''|] end; try exact E1;
        destruct (m_learner m''); exact E1. }
    destruct (do_flip g1 out true true (e_lead2 v) (e_a1 v)) as [g2 e2]. cbn [fst] in HF.
    destruct e2; try (let H := fresh in intros H; exfalso; now apply H). unfold propose.
    destruct (e_a2 v); cbn [applied fst snd]; try (let H := fresh in intros H; exfalso; now apply H).
    - intros _. unfold do_add. destruct (negb (e_lead3 v)); [change (Task (ctx_id id) out inn = Task id out inn); now rewrite EC|].
      destruct (has _ inn); [change (Task (ctx_id id) out inn = Task id out inn); now rewrite EC|].
      destruct (e_a3 v); change (Task (ctx_id id) out inn = Task id out inn); now rewrite EC.
    - intros _. change (Task (ctx_id id) out inn = Task id out inn). now rewrite EC. }
  set (g1 := fst (start_replace laggy me g id out inn q v)) in *. clearbody g1. split.
  - unfold get_status. rewrite HT. cbn [negb t_id]. destruct id as [|x id]; [congruence|]. cbn [no_id].
    now rewrite id_eqb_refl.
  - intros me' q' v'. unfold start_replace. destruct (me' =? out); [discriminate|].
    set (g2 := if 1 <=? q' then reset_quorum g1 q' else g1).
    assert (E2 : g_task g2 = Task id out inn) by (unfold g2; destruct (1 <=? q'); exact HT). clearbody g2.
    destruct (negb (e_lead1 v')); [discriminate|]. rewrite E2. cbn [t_id]. rewrite id_eqb_refl. cbn [negb].
    rewrite andb_false_r. destruct (find (g_cfg g2) out) as [m|]; [|destruct (has _ inn); discriminate].
    destruct (_ && _); [discriminate|].
    assert (HF : snd (do_flip g2 out true true (e_lead2 v') (e_a1 v')) <> Mismatch).
    { unfold do_flip. destruct (e_lead2 v'); [|discriminate]. cbn [negb]. destruct (find (g_cfg g2) out) as [m'|]; [|discriminate].
      destruct (Bool.eqb _ _); [|destruct (e_a1 v'); cbn [applied]]; try discriminate;
        match goal with |- context [find ?c out] => destruct (find c out) as [m''|] end; try discriminate;
        destruct (m_learner m''); discriminate. }
    destruct (do_flip g2 out true true (e_lead2 v') (e_a1 v')) as [g3 e3]. cbn [snd] in HF.
    destruct e3; try discriminate; [|now elim HF]. unfold propose.
    destruct (e_a2 v'); cbn [applied]; try discriminate.
    unfold do_add. destruct (negb (e_lead3 v')); [discriminate|].
    destruct (has _ inn); [discriminate|]. destruct (e_a3 v'); discriminate.
Qed.

(** An id of 64 characters: the task that was started is another's. *)
Theorem c119_long_refuted : exists laggy me g id out inn v,
  g_task g = no_task /\ length id = 64%nat /\
  snd (start_replace laggy me g id out inn 0 v) = Ok /\
  let g1 := fst (start_replace laggy me g id out inn 0 v) in
  get_status g1 id out inn true = SMismatch /\
  snd (start_replace laggy me g1 id out inn 0 v) = Mismatch /\
  snd (clean_task g1 id 0 v) = Mismatch.
Proof.
  exists 10, 1, (Grp [Mem 1 false 100 50; Mem 2 false 80 50; Mem 3 false 60 50] no_task 0 50 1),
    (repeat 97 64), 3, 4, all_well.
  repeat split; reflexivity.
Qed.

Print Assumptions c119_id_partial.
Print Assumptions c119_long_refuted.

Example c119_example :
  g_task (fst (start_replace 10 1 ex_g ex_id 3 4 1 all_well)) = Task ex_id 3 4 /\ (length ex_id <= 63)%nat.
Proof. split; [reflexivity|cbn; lia]. Qed.
