(** Lemmas on the replacement of members. *)
From Coq Require Import ZArith NArith List Bool Arith Lia.
From Coq Require Import ZifyBool ZifyNat ZifyN.
From Verif Require Import MemberModel MemberSpec.
Import ListNotations.
Local Open Scope N_scope.

Ltac Zify.zify_post_hook ::= Z.div_mod_to_equations.

(** ** Configurations as servers *)

Definition sfind (l : list server) (i : N) : option server :=
  List.find (fun s => fst (fst s) =? i) l.

Lemma find_servers : forall c i, sfind (servers c) i = option_map server_of (find c i).
Proof.
  intros c i. unfold sfind, servers, find. induction c as [|m c IH]; [reflexivity|]. cbn.
  destruct (m_id m =? i); [reflexivity|exact IH].
Qed.

Lemma has_servers : forall c i, has c i = match sfind (servers c) i with Some _ => true | None => false end.
Proof. intros c i. unfold has. rewrite find_servers. now destruct (find c i). Qed.

Lemma servers_set_learner : forall c i, servers (set_learner c i true) = demoted i (servers c).
Proof.
  intros c i. unfold servers, set_learner, demoted. rewrite !map_map. apply map_ext. intros m.
  unfold server_of. destruct (N.eqb_spec (m_id m) i) as [E|E]; cbn; [now rewrite E|reflexivity].
Qed.

Lemma servers_add : forall c m, servers (add c m) = servers c ++ [server_of m].
Proof. intros. unfold servers, add. now rewrite map_app. Qed.

Lemma servers_del : forall c i, servers (del c i) = filter (fun s => negb (fst (fst s) =? i)) (servers c).
Proof.
  intros c i. unfold servers, del. induction c as [|m c IH]; [reflexivity|]. cbn.
  destruct (m_id m =? i); cbn; [exact IH|now rewrite IH].
Qed.

Lemma servers_progress : forall g f c s, servers (g_cfg (progress g f c s)) = servers (g_cfg g).
Proof. intros. unfold servers, progress. cbn. rewrite map_map. reflexivity. Qed.

Lemma sfind_demoted : forall l i j, sfind (demoted i l) j =
  option_map (fun s => let '(k, b, p) := s in if k =? i then (k, true, p) else s) (sfind l j).
Proof.
  intros l i j. unfold sfind, demoted. induction l as [|[[k b] p] l IH]; [reflexivity|]. cbn.
  destruct (N.eqb_spec k i) as [E|E]; cbn; destruct (N.eqb_spec k j) as [E2|E2]; cbn;
    try exact IH; (destruct (N.eqb_spec k i); [reflexivity||congruence|reflexivity||congruence]).
Qed.

Lemma sfind_app : forall a b i, sfind (a ++ b) i = match sfind a i with Some s => Some s | None => sfind b i end.
Proof.
  intros a b i. unfold sfind. induction a as [|s a IH]; [reflexivity|]. cbn. destruct (fst (fst s) =? i); auto.
Qed.

Lemma sfind_del : forall l i j, i <> j ->
  sfind (filter (fun s => negb (fst (fst s) =? i)) l) j = sfind l j.
Proof.
  intros l i j H. unfold sfind. induction l as [|s l IH]; [reflexivity|]. cbn.
  destruct (N.eqb_spec (fst (fst s)) i) as [E|E]; cbn.
  - destruct (N.eqb_spec (fst (fst s)) j); [congruence|exact IH].
  - destruct (fst (fst s) =? j); auto.
Qed.

Lemma sfind_del_self : forall l i, sfind (filter (fun s => negb (fst (fst s) =? i)) l) i = None.
Proof.
  intros l i. unfold sfind. induction l as [|s l IH]; [reflexivity|]. cbn.
  destruct (fst (fst s) =? i) eqn:E; cbn; [exact IH|now rewrite E].
Qed.

Lemma del_demoted : forall l i, filter (fun s => negb (fst (fst s) =? i)) (demoted i l) =
  filter (fun s => negb (fst (fst s) =? i)) l.
Proof.
  intros l i. unfold demoted. induction l as [|[[k b] p] l IH]; [reflexivity|]. cbn.
  destruct (k =? i) eqn:E; cbn; rewrite E; cbn; [exact IH|now rewrite IH].
Qed.

Lemma del_joined : forall l out inn p, out <> inn ->
  filter (fun s => negb (fst (fst s) =? out)) (joined out inn p l) = replaced out inn p l.
Proof.
  intros l out inn p H. unfold joined, replaced. rewrite filter_app, del_demoted. cbn.
  now replace (inn =? out) with false by lia.
Qed.

Lemma ctx_id_short : forall i : list N, (length i <= 63)%nat -> ctx_id i = i.
Proof. intros i H. unfold ctx_id. now apply firstn_all2. Qed.

Lemma id_eqb_refl : forall i, id_eqb i i = true.
Proof. intros i. unfold id_eqb. now destruct (list_eq_dec N.eq_dec i i). Qed.

Lemma id_eqb_ne : forall i j, i <> j -> id_eqb i j = false.
Proof. intros i j H. unfold id_eqb. now destruct (list_eq_dec N.eq_dec i j). Qed.

(** ** One replacement *)

Section Replace.
Context (laggy : N) (id : list N) (out inn : N) (prio : Z) (l0 : list server).
Hypothesis Hid : id <> [].
Hypothesis Hlen : (length id <= 63)%nat.
Hypothesis Hne : out <> inn.
Hypothesis Hout : out <> 0.
Hypothesis Hin : inn <> 0.
(** Before: the old member votes, the new one is not there. *)
Hypothesis Ho : sfind l0 out = Some (out, false, prio).
Hypothesis Hi : sfind l0 inn = None.

Definition mine : task := Task id out inn.

Inductive inv (g : grp) : Prop :=
| I0 : servers (g_cfg g) = l0 -> g_task g = no_task -> inv g
| I1 : servers (g_cfg g) = demoted out l0 -> g_task g = no_task \/ g_task g = mine -> inv g
| I2 : servers (g_cfg g) = joined out inn prio l0 -> g_task g = mine -> inv g
| I3 : servers (g_cfg g) = replaced out inn prio l0 -> g_task g = no_task \/ g_task g = mine -> inv g.

Lemma inv_quorum : forall g q, inv g -> inv (reset_quorum g q).
Proof. intros g q [H1 H2|H1 H2|H1 H2|H1 H2]; [apply I0|apply I1|apply I2|apply I3]; assumption. Qed.

Lemma at1_out : sfind (demoted out l0) out = Some (out, true, prio).
Proof. rewrite sfind_demoted, Ho. cbn. now rewrite N.eqb_refl. Qed.
Lemma at1_in : sfind (demoted out l0) inn = None.
Proof. now rewrite sfind_demoted, Hi. Qed.
Lemma at2_out : sfind (joined out inn prio l0) out = Some (out, true, prio).
Proof. unfold joined. now rewrite sfind_app, at1_out. Qed.
Lemma at2_in : sfind (joined out inn prio l0) inn = Some (inn, false, prio).
Proof. unfold joined. rewrite sfind_app, at1_in. cbn. now rewrite N.eqb_refl. Qed.
Lemma at3_out : sfind (replaced out inn prio l0) out = None.
Proof. unfold replaced. rewrite sfind_app, sfind_del_self. cbn. now replace (inn =? out) with false by lia. Qed.
Lemma at3_in : sfind (replaced out inn prio l0) inn = Some (inn, false, prio).
Proof. unfold replaced. rewrite sfind_app, sfind_del, Hi by assumption. cbn. now rewrite N.eqb_refl. Qed.

Lemma find_of : forall g i l s, servers (g_cfg g) = l -> sfind l i = Some s ->
  exists m, find (g_cfg g) i = Some m /\ server_of m = s.
Proof.
  intros g i l s <- H. rewrite find_servers in H. destruct (find (g_cfg g) i) as [m|]; [|discriminate].
  exists m. split; [reflexivity|]. now injection H.
Qed.

Lemma find_not : forall g i l, servers (g_cfg g) = l -> sfind l i = None -> find (g_cfg g) i = None.
Proof.
  intros g i l <- H. rewrite find_servers in H. destruct (find (g_cfg g) i); [discriminate|reflexivity].
Qed.

Lemma has_of : forall g i l s, servers (g_cfg g) = l -> sfind l i = Some s -> has (g_cfg g) i = true.
Proof. intros g i l s H1 H2. now rewrite has_servers, H1, H2. Qed.
Lemma has_not : forall g i l, servers (g_cfg g) = l -> sfind l i = None -> has (g_cfg g) i = false.
Proof. intros g i l H1 H2. now rewrite has_servers, H1, H2. Qed.

Lemma task_ok : forall g, inv g ->
  negb (no_id (t_id (g_task g))) && negb (id_eqb (t_id (g_task g)) id) = false.
Proof.
  assert (HA : forall t, t = no_task \/ t = mine -> negb (no_id (t_id t)) && negb (id_eqb (t_id t) id) = false).
  { intros t [->| ->]; cbn [t_id no_task mine no_id negb andb]; [reflexivity|]. rewrite id_eqb_refl. apply andb_false_r. }
  intros g [_ H|_ H|_ H|_ H]; apply HA; auto.
Qed.

(** The second half of a start: the old member votes no more. *)
Lemma flip_ok : forall g lead a, inv g -> find (g_cfg g) out <> None ->
  let r := do_flip g out true true lead a in
  inv (fst r) /\ (snd r = Ok -> servers (g_cfg (fst r)) = demoted out l0 \/ servers (g_cfg (fst r)) = joined out inn prio l0)
  /\ g_task (fst r) = g_task g.
Proof.
  intros g lead a I HF r. subst r. unfold do_flip. destruct lead; cbn [negb]; [|cbn; auto using inv; repeat split; auto; discriminate].
  destruct (find (g_cfg g) out) as [m|] eqn:Em; [|congruence]. clear HF.
  assert (Es : sfind (servers (g_cfg g)) out = Some (server_of m)) by now rewrite find_servers, Em.
  destruct I as [H1 H2|H1 H2|H1 H2|H1 H2].
  - rewrite H1, Ho in Es. injection Es as E1 E2 E3. rewrite <- E2. cbn [Bool.eqb].
    assert (HS : servers (set_learner (g_cfg g) out true) = demoted out l0) by (now rewrite servers_set_learner, H1).
    assert (HF : exists m', find (set_learner (g_cfg g) out true) out = Some m' /\ m_learner m' = true).
    { destruct (find_of (with_cfg g (set_learner (g_cfg g) out true)) out _ _ HS at1_out) as [m' [F1 F2]].
      exists m'. split; [exact F1|]. now injection F2. }
    destruct HF as [m' [F1 F2]].
    destruct a; cbn [applied with_cfg g_cfg]; [rewrite F1, F2| |]; cbn [fst snd g_cfg with_cfg g_task].
    + split; [apply I1; auto|]. split; auto.
    + split; [apply I0; auto|]. split; [discriminate|auto].
    + split; [apply I1; auto|]. split; [discriminate|auto].
  - rewrite H1, at1_out in Es. injection Es as E1 E2 E3. rewrite <- E2. cbn [Bool.eqb]. rewrite Em, <- E2. cbn [fst snd].
    split; [apply I1; auto|]. split; auto.
  - rewrite H1, at2_out in Es. injection Es as E1 E2 E3. rewrite <- E2. cbn [Bool.eqb]. rewrite Em, <- E2. cbn [fst snd].
    split; [apply I2; auto|]. split; auto.
  - rewrite H1, at3_out in Es. discriminate.
Qed.

Lemma prio_of : forall g m, inv g -> find (g_cfg g) out = Some m -> m_prio m = prio.
Proof.
  intros g m I Em. assert (Es : sfind (servers (g_cfg g)) out = Some (server_of m)) by now rewrite find_servers, Em.
  destruct I as [H1 _|H1 _|H1 _|H1 _]; rewrite H1 in Es;
    [rewrite Ho in Es|rewrite at1_out in Es|rewrite at2_out in Es|rewrite at3_out in Es; discriminate];
    now injection Es.
Qed.

Lemma add_ok : forall g lead a lsn, (servers (g_cfg g) = demoted out l0 \/ servers (g_cfg g) = joined out inn prio l0) ->
  g_task g = mine -> let r := do_add g inn prio lsn lead a in
  inv (fst r) /\ g_task (fst r) = mine /\ (snd r = Ok -> servers (g_cfg (fst r)) = joined out inn prio l0).
Proof.
  intros g lead a lsn HC HT r. subst r. unfold do_add.
  assert (I : inv g) by (destruct HC; [apply I1|apply I2]; auto).
  destruct lead; cbn [negb fst snd]; [|split; [exact I|]; split; [exact HT|discriminate]].
  destruct HC as [HC|HC].
  - rewrite (has_not g inn _ HC at1_in).
    assert (HS : servers (add (g_cfg g) (Mem inn false prio lsn)) = joined out inn prio l0)
      by now rewrite servers_add, HC.
    destruct a; cbn [applied fst snd g_cfg g_task with_cfg].
    + split; [apply I2; auto|]. auto.
    + split; [exact I|]. split; [exact HT|discriminate].
    + split; [apply I2; auto|]. split; [exact HT|discriminate].
  - rewrite (has_of g inn _ _ HC at2_in). cbn [fst snd]. auto.
Qed.

Lemma start_ok : forall g me q v, inv g -> inv (fst (start_replace laggy me g id out inn q v)) /\
  (snd (start_replace laggy me g id out inn q v) = Ok ->
   let g' := fst (start_replace laggy me g id out inn q v) in
   (servers (g_cfg g') = joined out inn prio l0 /\ g_task g' = mine) \/
   servers (g_cfg g') = replaced out inn prio l0).
Proof.
  intros g me q v I. unfold start_replace. destruct (me =? out); [cbn; split; [exact I|discriminate]|].
  set (g1 := if 1 <=? q then reset_quorum g q else g).
  assert (I1' : inv g1) by (unfold g1; destruct (1 <=? q); [now apply inv_quorum|exact I]).
  clearbody g1. clear I g. rename g1 into g. rename I1' into I.
  destruct (e_lead1 v); cbn [negb]; [|split; [exact I|discriminate]].
  rewrite (task_ok g I).
  destruct (find (g_cfg g) out) as [m|] eqn:Em.
  - rewrite (prio_of g m I Em).
    destruct ((active_num laggy me g out inn <? commit_quorum_of (g_cfg g)) && (q =? 0));
      [cbn; split; [now apply inv_quorum|discriminate]|].
    assert (HF : find (g_cfg g) out <> None) by congruence.
    pose proof (flip_ok g (e_lead2 v) (e_a1 v) I HF) as FO. cbv zeta in FO.
    destruct (do_flip g out true true (e_lead2 v) (e_a1 v)) as [g1 e1]. cbn [fst snd] in FO. destruct FO as [J1 [J2 J3]].
    destruct e1; try (cbn; split; [now apply inv_quorum|discriminate]).
    unfold propose. destruct (e_a2 v); cbn [applied].
    + assert (HT : g_task (commit_start id out inn g1) = mine).
      { unfold commit_start, mine. cbn [g_task with_task]. now rewrite ctx_id_short. }
      pose proof (add_ok (commit_start id out inn g1) (e_lead3 v) (e_a3 v) (e_lsn v) (J2 eq_refl) HT) as AO. cbv zeta in AO.
      destruct (do_add (commit_start id out inn g1) inn prio (e_lsn v) (e_lead3 v) (e_a3 v)) as [g2 e2].
      cbn [fst snd] in AO. destruct AO as [K1 [K2 K3]].
      destruct e2; cbn [fst snd]; split; try (now apply inv_quorum); try discriminate.
      intros _. left. cbn [g_cfg g_task reset_quorum]. auto.
    + cbn [fst snd]. split; [now apply inv_quorum|discriminate].
    + cbn [fst snd]. split; [|discriminate]. apply inv_quorum.
      destruct (J2 eq_refl) as [H|H]; [apply I1|apply I2]; unfold commit_start, mine; cbn [g_cfg g_task with_task];
        rewrite ?ctx_id_short; auto.
  - assert (HS : servers (g_cfg g) = replaced out inn prio l0).
    { assert (Es : sfind (servers (g_cfg g)) out = None) by now rewrite find_servers, Em.
      destruct I as [H1 _|H1 _|H1 _|H1 _]; [| | |exact H1]; rewrite H1 in Es;
        [rewrite Ho in Es|rewrite at1_out in Es|rewrite at2_out in Es]; discriminate. }
    rewrite (has_of g inn _ _ HS at3_in). cbn [fst snd]. split; [exact I|]. auto.
Qed.

Lemma monitor_ok : forall g me v, inv g -> inv (fst (monitor laggy me g v)).
Proof.
  intros g me v I. unfold monitor. destruct (e_lead1 v) eqn:El; cbn [negb]; [|exact I].
  destruct ((t_in (g_task g) =? 0) || (t_out (g_task g) =? 0)) eqn:E0; [exact I|].
  assert (HT : g_task g = mine).
  { destruct I as [H1 H2|H1 H2|H1 H2|H1 H2]; try exact H2; try (rewrite H2 in E0; discriminate);
      destruct H2 as [H2|H2]; try exact H2; rewrite H2 in E0; discriminate. }
  rewrite HT. cbn [t_in t_out mine].
  destruct (has (g_cfg g) inn) eqn:Eh; cbn [negb]; [|exact I].
  destruct (lsn_of (g_cfg g) out <=? lsn_of (g_cfg g) inn + laggy); cbn [negb]; [|exact I].
  unfold complete_replace. cbn [N.leb]. change (1 <=? 0) with false. cbv zeta iota.
  assert (HD : let r := do_remove me g out true (e_lead1 v) (e_a1 v) in
    inv (fst r) /\ g_task (fst r) = mine /\ (snd r = Ok -> servers (g_cfg (fst r)) = replaced out inn prio l0)).
  { cbv zeta. unfold do_remove. destruct ((me =? out) && e_lead1 v); [split; [exact I|]; split; [exact HT|discriminate]|].
    destruct I as [H1 H2|H1 H2|H1 H2|H1 H2].
    - rewrite (has_not g inn _ H1 Hi) in Eh. discriminate.
    - rewrite (has_not g inn _ H1 at1_in) in Eh. discriminate.
    - rewrite (has_of g out _ _ H1 at2_out). cbn [negb].
      assert (HS : servers (del (g_cfg g) out) = replaced out inn prio l0)
        by now rewrite servers_del, H1, del_joined.
      destruct (e_a1 v); cbn [applied andb].
      + destruct (has (g_cfg (with_cfg g (del (g_cfg g) out))) out); cbn [fst snd];
          (split; [apply I3; auto|split; [exact HT|auto; discriminate]]).
      + cbn [fst snd]. split; [apply I2; auto|]. split; [exact HT|discriminate].
      + cbn [fst snd]. split; [apply I3; auto|]. split; [exact HT|discriminate].
    - rewrite (has_not g out _ H1 at3_out). cbn [negb fst snd]. split; [apply I3; auto|]. auto. }
  cbv zeta in HD. destruct (do_remove me g out true (e_lead1 v) (e_a1 v)) as [g1 e1]. cbn [fst snd] in HD.
  destruct HD as [J1 [J2 J3]]. destruct e1; try (cbn; now apply inv_quorum).
  unfold propose. destruct (e_a2 v); cbn [applied fst]; apply inv_quorum; [|exact J1|];
    (apply I3; [|left]; unfold commit_complete; rewrite J2; cbn [mine t_id];
     destruct id as [|x r]; [congruence|auto|congruence|auto]; cbn [no_id g_task g_cfg with_task]; auto).
Qed.

Lemma run_inv : forall cs g, inv g -> inv (run laggy id out inn g cs).
Proof.
  induction cs as [|c cs IH]; intros g I; [exact I|]. cbn [run fold_left]. apply IH.
  destruct c as [me q v|me v|f c s]; cbn [step].
  - now apply start_ok.
  - now apply monitor_ok.
  - destruct I as [H1 H2|H1 H2|H1 H2|H1 H2]; [apply I0|apply I1|apply I2|apply I3];
      rewrite ?servers_progress; assumption.
Qed.

(** With a leader and a raft that does as it is told, a start goes through from
    every stage, and so does the check after it. *)
Lemma start_live : forall g me q v, inv g -> me <> out -> 1 <= q ->
  e_lead1 v = true -> e_lead2 v = true -> e_lead3 v = true ->
  e_a1 v = Done -> e_a2 v = Done -> e_a3 v = Done ->
  snd (start_replace laggy me g id out inn q v) = Ok.
Proof.
  intros g me q v I Hm Hq L1 L2 L3 A1 A2 A3. unfold start_replace. replace (me =? out) with false by lia.
  replace (1 <=? q) with true by lia. cbv zeta. rewrite L1, L2, L3, A1, A2, A3. cbn [negb].
  apply (inv_quorum g q) in I. set (g1 := reset_quorum g q) in *. clearbody g1. clear g. rename g1 into g.
  rewrite (task_ok g I). replace (q =? 0) with false by lia. rewrite andb_false_r.
  destruct (find (g_cfg g) out) as [m|] eqn:Em.
  - rewrite (prio_of g m I Em).
    assert (HF : snd (do_flip g out true true true Done) = Ok).
    { unfold do_flip. cbn [negb]. rewrite Em. destruct (m_learner m) eqn:El; cbn [Bool.eqb applied].
      - now rewrite Em, El.
      - cbn [g_cfg with_cfg].
        assert (Es : sfind (servers (set_learner (g_cfg g) out true)) out = Some (out, true, m_prio m)).
        { rewrite servers_set_learner, sfind_demoted, find_servers, Em. cbn.
          apply find_some in Em. destruct Em as [_ Em]. rewrite Em. now replace (m_id m) with out by lia. }
        rewrite find_servers in Es. destruct (find (set_learner (g_cfg g) out true) out) as [m'|]; [|discriminate].
        cbn [option_map] in Es. injection Es as E1 E2 E3. now rewrite E2. }
    destruct (do_flip g out true true true Done) as [g1 e1]. cbn [snd] in HF. subst e1.
    unfold propose. cbn [applied]. unfold do_add. cbn [negb applied].
    destruct (has _ inn); reflexivity.
  - assert (HS : servers (g_cfg g) = replaced out inn prio l0).
    { assert (Es : sfind (servers (g_cfg g)) out = None) by now rewrite find_servers, Em.
      destruct I as [H1 _|H1 _|H1 _|H1 _]; [| | |exact H1]; rewrite H1 in Es;
        [rewrite Ho in Es|rewrite at1_out in Es|rewrite at2_out in Es]; discriminate. }
    now rewrite (has_of g inn _ _ HS at3_in).
Qed.

Lemma monitor_live : forall g me v,
  (servers (g_cfg g) = joined out inn prio l0 /\ g_task g = mine) \/
  (servers (g_cfg g) = replaced out inn prio l0 /\ (g_task g = no_task \/ g_task g = mine)) ->
  me <> out -> lsn_of (g_cfg g) out <= lsn_of (g_cfg g) inn + laggy ->
  e_lead1 v = true -> e_a1 v = Done -> e_a2 v = Done ->
  servers (g_cfg (fst (monitor laggy me g v))) = replaced out inn prio l0 /\
  g_task (fst (monitor laggy me g v)) = no_task.
Proof.
  intros g me v HC Hm Hl L1 A1 A2.
  assert (HT : g_task g = no_task \/ g_task g = mine) by (destruct HC as [[_ H]|[_ H]]; auto).
  unfold monitor. rewrite L1. cbn [negb].
  destruct HT as [HT|HT]; rewrite HT; cbn [t_in t_out no_task mine].
  { cbn. destruct HC as [[_ H]|[H _]]; [|auto]. rewrite HT in H. unfold mine, no_task in H. congruence. }
  replace (inn =? 0) with false by lia. replace (out =? 0) with false by lia. cbn [orb].
  assert (Hh : has (g_cfg g) inn = true).
  { destruct HC as [[H _]|[H _]]; [eapply has_of; [exact H|apply at2_in]|eapply has_of; [exact H|apply at3_in]]. }
  rewrite Hh. cbn [negb]. replace (lsn_of (g_cfg g) out <=? lsn_of (g_cfg g) inn + laggy) with true by lia.
  cbn [negb]. unfold complete_replace. change (1 <=? 0) with false. cbv zeta iota.
  rewrite L1, A1, A2. unfold do_remove. replace (me =? out) with false by lia. cbn [andb applied].
  assert (HN' : no_id (t_id (g_task g)) = false).
  { rewrite HT. cbn. destruct id; [congruence|reflexivity]. }
  destruct HC as [[HC _]|[HC _]].
  - rewrite (has_of g out _ _ HC at2_out). cbn [negb].
    assert (HS : servers (del (g_cfg g) out) = replaced out inn prio l0)
      by (rewrite servers_del, HC; now apply del_joined).
    rewrite (has_not (with_cfg g (del (g_cfg g) out)) out _ HS at3_out).
    cbn [andb]. unfold propose. cbn [applied fst g_cfg g_task reset_quorum].
    unfold commit_complete. cbn [g_task with_cfg]. rewrite HN'. cbn. auto.
  - rewrite (has_not g out _ HC at3_out). cbn [negb]. unfold propose. cbn [applied fst].
    unfold commit_complete. rewrite HN'. cbn. auto.
Qed.

End Replace.

(** ** Counting *)

Lemma active_num_count : forall laggy me g out inn, out <> inn ->
  active_num laggy me g out inn =
  N.of_nat (length (filter (fun p => negb (p =? out) && negb (p =? inn)) (active_peers laggy me g))) + 1.
Proof.
  intros laggy me g out inn H. unfold active_num. generalize (active_peers laggy me g). intros l.
  assert (HG : forall l k, fold_left (fun n p => let n := if p =? out then n - 1 else n in
                        if p =? inn then n - 1 else n) l (N.of_nat (length l) + k) =
    N.of_nat (length (filter (fun p => negb (p =? out) && negb (p =? inn)) l)) + k).
  { clear l. induction l as [|p l IH]; intros k; [reflexivity|].
    cbn [fold_left length filter]. cbv zeta.
    destruct (N.eqb_spec p out) as [E1|E1]; destruct (N.eqb_spec p inn) as [E2|E2]; cbn [negb andb]; [congruence| | |].
    - replace (N.of_nat (S (length l)) + k - 1) with (N.of_nat (length l) + k) by lia. apply IH.
    - replace (N.of_nat (S (length l)) + k - 1) with (N.of_nat (length l) + k) by lia. apply IH.
    - replace (N.of_nat (S (length l)) + k) with (N.of_nat (length l) + (k + 1)) by lia. rewrite IH. cbn [length]. lia. }
  apply HG.
Qed.

Definition cnt {A} (f : A -> bool) (l : list A) : nat := length (filter f l).

Lemma cnt_split : forall A (f h : A -> bool) l,
  cnt f l = (cnt (fun x => f x && h x) l + cnt (fun x => f x && negb (h x)) l)%nat.
Proof.
  intros A f h l. unfold cnt. induction l as [|x l IH]; [reflexivity|]. cbn [filter].
  destruct (f x), (h x); cbn [andb negb length]; rewrite ?IH; lia.
Qed.

Lemma cnt_ext : forall A (f h : A -> bool) l, (forall x, In x l -> f x = h x) -> cnt f l = cnt h l.
Proof. intros A f h l H. unfold cnt. f_equal. now apply filter_ext_in. Qed.

Lemma cnt_filter : forall A (f h : A -> bool) l, cnt f (filter h l) = cnt (fun x => h x && f x) l.
Proof.
  intros A f h l. unfold cnt. induction l as [|x l IH]; [reflexivity|]. cbn [filter].
  destruct (h x); cbn [filter andb]; [|exact IH]. destruct (f x); cbn [length]; now rewrite IH.
Qed.

Lemma cnt_map : forall A B (f : B -> bool) (h : A -> B) l, cnt f (map h l) = cnt (fun x => f (h x)) l.
Proof.
  intros A B f h l. unfold cnt. induction l as [|x l IH]; [reflexivity|]. cbn [map filter].
  destruct (f (h x)); cbn [length]; now rewrite IH.
Qed.

Lemma cnt_none : forall A (f : A -> bool) l, (forall x, In x l -> f x = false) -> cnt f l = 0%nat.
Proof.
  intros A f l H. unfold cnt. induction l as [|x l IH]; [reflexivity|]. cbn [filter].
  rewrite H by (now left). apply IH. intros y Hy. apply H. now right.
Qed.

(** With distinct ids there is one member of an id. *)
Lemma cnt_one : forall (c : list member) f m, NoDup (map m_id c) -> In m c ->
  cnt (fun x => (m_id x =? m_id m) && f x) c = if f m then 1%nat else 0%nat.
Proof.
  induction c as [|x c IH]; intros f m HN Hm; [destruct Hm|]. cbn [map] in HN. inversion HN as [|? ? HN1 HN2].
  subst. unfold cnt. cbn [filter]. destruct Hm as [->|Hm].
  - rewrite N.eqb_refl. cbn [andb].
    assert (HZ : cnt (fun x => (m_id x =? m_id m) && f x) c = 0%nat).
    { apply cnt_none. intros y Hy. destruct (N.eqb_spec (m_id y) (m_id m)) as [E|]; [|reflexivity].
      exfalso. apply HN1. rewrite <- E. now apply in_map. }
    unfold cnt in HZ. destruct (f m); cbn [length]; now rewrite HZ.
  - destruct (N.eqb_spec (m_id x) (m_id m)) as [E|E].
    + exfalso. apply HN1. rewrite E. now apply in_map.
    + cbn [andb]. apply IH; assumption.
Qed.

Lemma find_in : forall c i m, find c i = Some m -> In m c /\ m_id m = i.
Proof. intros c i m H. apply find_some in H. destruct H as [H1 H2]. split; [exact H1|lia]. Qed.

Lemma find_none_id : forall c i, find c i = None -> forall m, In m c -> m_id m <> i.
Proof. intros c i H m Hm. pose proof (find_none _ _ H m Hm). cbn in *. lia. Qed.

Lemma cnt_set_learner : forall (c : list member) i b (f h : member -> bool),
  (forall m, m_id m <> i -> f m = h m) ->
  (forall m, m_id m = i -> f (Mem i b (m_prio m) (m_lsn m)) = h m) ->
  cnt f (set_learner c i b) = cnt h c.
Proof.
  intros c i b f h H1 H2. unfold set_learner. rewrite cnt_map. apply cnt_ext. intros m _.
  destruct (N.eqb_spec (m_id m) i) as [E|E]; auto.
Qed.

Section Majority.
Context (laggy me : N) (g : grp) (out inn : N).
Notation c := (g_cfg g).
Hypothesis Hoi : out <> inn.
Hypothesis Hmo : me <> out.
Hypothesis Hmi : me <> inn.
Hypothesis HN : NoDup (map m_id c).
Hypothesis Hme : exists m, find c me = Some m.
(** No learners but the member that goes. *)
Hypothesis Hlearn : forall m, In m c -> m_learner m = true -> m_id m = out.

(** The leader and the peers that keep up, without the two of the exchange. *)
Definition good (m : member) : bool :=
  negb (m_id m =? out) && negb (m_id m =? inn) && ((m_id m =? me) || (least_active laggy g <=? m_lsn m)).

Lemma good_count : N.of_nat (cnt (fun m => voter m && good m) c) = active_num laggy me g out inn.
Proof.
  rewrite active_num_count by assumption. unfold active_peers.
  change (length (filter ?f ?l)) with (cnt f l). rewrite cnt_map, cnt_filter.
  rewrite (cnt_split _ _ (fun m => m_id m =? me)).
  destruct Hme as [m Em]. destruct (find_in _ _ _ Em) as [Hm Ei].
  assert (H1 : cnt (fun x => voter x && good x && (m_id x =? me)) c = 1%nat).
  { rewrite (cnt_ext _ _ (fun x => (m_id x =? m_id m) && (voter x && good x))).
    2: { intros x _. rewrite Ei. apply andb_comm. }
    rewrite cnt_one by assumption.
    assert (HV : voter m = true).
    { unfold voter. destruct (m_learner m) eqn:El; [|reflexivity]. specialize (Hlearn m Hm El). congruence. }
    rewrite HV. unfold good. rewrite Ei, N.eqb_refl.
    replace (me =? out) with false by lia. replace (me =? inn) with false by lia. reflexivity. }
  rewrite H1.
  assert (H2 : cnt (fun x => voter x && good x && negb (m_id x =? me)) c =
    cnt (fun x => negb (m_id x =? me) && (least_active laggy g <=? m_lsn x) &&
                  (negb (m_id x =? out) && negb (m_id x =? inn))) c).
  { apply cnt_ext. intros x Hx. unfold good. destruct (m_id x =? me) eqn:E1; cbn [orb negb andb];
      [now rewrite !andb_false_r|].
    unfold voter. destruct (m_learner x) eqn:El; cbn [negb andb].
    - rewrite (Hlearn x Hx El), N.eqb_refl. cbn [negb andb]. now rewrite andb_false_r.
    - rewrite andb_true_r. apply andb_comm. }
  rewrite H2. lia.
Qed.

Lemma good_majority : commit_quorum_of c <= active_num laggy me g out inn ->
  (forall m, find c out = Some m -> m_learner m = true -> has c inn = false -> Nat.odd (length c) = true) ->
  forall o, find c out = Some o ->
  majority good c /\ majority good (set_learner c out true) /\
  (has c inn = false -> forall p l, majority good (add (set_learner c out true) (Mem inn false p l))).
Proof.
  intros HQ Hodd o Eo. rewrite <- good_count in HQ. unfold commit_quorum_of, voters in HQ.
  destruct (find_in _ _ _ Eo) as [Ho Eoi].
  change (filter (fun m => negb (m_learner m)) c) with (filter voter c) in HQ.
  change (length (filter voter c)) with (cnt voter c) in HQ.
  set (a := cnt (fun m => voter m && good m) c) in *.
  set (n1 := cnt (fun m => voter m && negb (m_id m =? out)) c).
  assert (HV : cnt voter c = ((if m_learner o then 0 else 1) + n1)%nat).
  { rewrite (cnt_split _ voter (fun m => m_id m =? out)). f_equal.
    rewrite (cnt_ext _ _ (fun x => (m_id x =? m_id o) && voter x)).
    2: { intros x _. rewrite Eoi. apply andb_comm. }
    rewrite cnt_one by assumption. unfold voter. now destruct (m_learner o). }
  assert (HA1 : cnt (fun m => voter m && good m) (set_learner c out true) = a).
  { apply cnt_set_learner; [reflexivity|]. intros m Em. unfold good. cbn [m_id]. rewrite Em, N.eqb_refl.
    cbn [negb andb voter]. now rewrite !andb_false_r. }
  assert (HV1 : cnt voter (set_learner c out true) = n1).
  { apply cnt_set_learner.
    - intros m Hm. replace (m_id m =? out) with false by lia. cbn [negb]. now rewrite andb_true_r.
    - intros m Hm. rewrite Hm, N.eqb_refl. cbn. now rewrite andb_false_r. }
  unfold majority. change (length (filter voter ?l)) with (cnt voter l).
  change (length (filter good ?l)) with (cnt good l). rewrite cnt_filter. fold a.
  split; [destruct (m_learner o); lia|]. split.
  - rewrite HV1, cnt_filter, HA1. destruct (m_learner o); lia.
  - intros Hin p l.
    assert (HA2 : cnt good (filter voter (add (set_learner c out true) (Mem inn false p l))) = a).
    { rewrite cnt_filter. unfold add, cnt. rewrite filter_app, app_length.
      change (length (filter (fun x => voter x && good x) (set_learner c out true))) with
        (cnt (fun m => voter m && good m) (set_learner c out true)). rewrite HA1.
      assert (HG : good (Mem inn false p l) = false).
      { unfold good. cbn [m_id]. rewrite N.eqb_refl. cbn [negb]. now rewrite andb_false_r. }
      cbn [filter]. rewrite HG, andb_false_r. cbn [length]. lia. }
    assert (HV2 : cnt voter (add (set_learner c out true) (Mem inn false p l)) = S n1).
    { unfold add, cnt. rewrite filter_app, app_length.
      change (length (filter voter (set_learner c out true))) with (cnt voter (set_learner c out true)).
      rewrite HV1. cbn. lia. }
    rewrite HA2, HV2. destruct (m_learner o) eqn:El; [|lia].
    specialize (Hodd o Eo El Hin). apply Nat.odd_spec in Hodd. destruct Hodd as [k Hk].
    assert (HC : length c = S n1).
    { assert (HL : length c = cnt (fun _ => true) c) by (unfold cnt; f_equal; clear; induction c; cbn; congruence).
      rewrite HL, (cnt_split _ _ (fun m => m_id m =? out)). cbn [andb].
      rewrite (cnt_ext _ (fun x => m_id x =? out) (fun x => (m_id x =? m_id o) && true)).
      2: { intros x _. rewrite Eoi. now rewrite andb_true_r. }
      rewrite cnt_one by assumption. cbn [Nat.add]. f_equal. apply cnt_ext. intros x Hx.
      unfold voter. destruct (m_learner x) eqn:Ex; [|reflexivity]. rewrite (Hlearn x Hx Ex), N.eqb_refl. reflexivity. }
    lia.
Qed.

End Majority.
