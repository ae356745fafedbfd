(** C138-C140: replica groups across crashes. *)
From stdpp Require Import gmap.
From Verif Require Import GrpLifeModel GrpLifeSpec GrpLifeProofs GrpLifeProofs2 GrpLifeProofs3 GrpLifeProofs4.
Open Scope N_scope.

(** C138.  Whatever was created, left, destroyed and saved, with crashes after any write, also during starts:
    every start comes up with every group that exists, with its log device, listener and raft state, with no group
    that was left, and with no log device shared. *)
Theorem c138_starts : forall l s, no_early l -> run init l = Some s -> starts_ok (out s).
Proof. intros l s N E. exact (g_ok s (proj1 (run_inv l init s N init_inv E))). Qed.
Print Assumptions c138_starts.

(** When nothing is under way, nothing on disk is without an owner. *)
Theorem c138_no_leak : forall l s, no_early l -> run init l = Some s -> md s = Run -> fl s = ∅ -> no_leak s.
Proof.
  intros l s N E M F. destruct (run_inv l init s N init_inv E) as [G I]. unfold inv_md in I. rewrite M in I.
  assert (W : forall g, row None (gs s !! g) (rds s !! g) (cfgs s !! g) (asked (out s) g) (devs s) (last s)).
  { intros g. pose proof (u_row s I g) as W. unfold rowok in W. now rewrite F, lookup_empty in W. }
  assert (O : forall g, owns s g = g_ld <$> gs s !! g).
  { intros g. unfold owns. now rewrite F, lookup_empty. }
  split; [|split; [|split]].
  - intros x. split.
    + intros X. destruct (u_own s I x X) as [g Y]. rewrite O in Y. destruct (gs s !! g) as [r|] eqn:Q; [|discriminate].
      injection Y as Y. eauto.
    + intros (g & r & Q & <-). specialize (W g). rewrite Q in W. now destruct W as (_ & _ & W).
  - intros g. specialize (W g). destruct (gs s !! g) as [r|]; cbn in W.
    + destruct W as (-> & _). split; eauto.
    + destruct W as (-> & _). split; intros [y Y]; discriminate.
  - intros g. specialize (W g). destruct (gs s !! g) as [r|]; cbn in W; [eauto|]. destruct W as (_ & ->). intros [y Y]. discriminate.
  - intros g g' r r' Q Q' Y. apply (u_inj s I g g' (g_ld r)); rewrite O, ?Q, ?Q'; cbn; congruence.
Qed.
Print Assumptions c138_no_leak.

(** No log device id is given out twice. *)
Theorem c138_ids : forall l s, no_early l -> run init l = Some s -> List.NoDup (new_ids (out s)).
Proof. intros l s N E. exact (g_nodup s (proj1 (run_inv l init s N init_inv E))). Qed.
Print Assumptions c138_ids.

(** The only way to die is a call through a listener that is not there (C140). *)
Theorem c138_no_crash : forall l s w, no_early l -> run init l = Some s -> md s = Dead w -> w = NoListener.
Proof.
  intros l s w N E M. destruct (run_inv l init s N init_inv E) as [_ I]. unfold inv_md in I. now rewrite M in I.
Qed.
Print Assumptions c138_no_crash.

(** A case: group 7 is created and saves a state; group 8's creation is cut after its log device was written, and
    group 9 is left; after the crash a start is cut, and the next one comes up with 7 only and one log device. *)
Definition make (g : N) : list ev := [ECreate g; EStep g; EStep g; EStep g; EStep g; EStep g].
Definition case138 : list ev :=
  make 7 ++ [ESave 7 5; ECreate 8; EStep 8; EStep 8] ++ make 9 ++ [ELeave 9; EStep 9; ECrash; EBoot; EBootRd 9; ECrash;
  EBoot; EBootRd 7; EBootNext; EBootCfg 9; EBootCfg 7; EBootNext; EBootDel 2; EBootDel 3; EBootNext].
Lemma no_early_dec l : forallb (fun e => match e with EGcEarly _ => false | _ => true end) l = true -> no_early l.
Proof. intros H g X. apply elem_of_list_In in X. rewrite forallb_forall in H. specialize (H _ X). discriminate. Qed.

Example case138_ok : no_early case138 /\
  option_map (fun s => (md s, map_to_list (fl s), elements (devs s), map_to_list (rds s), map_to_list (cfgs s),
    match out s with OStarted up :: _ => map_to_list up | _ => [] end)) (run init case138)
  = Some (Run, [], [1], [(7, Rd 1 false)], [(7, 5)], [(7, (1, true, 5))]).
Proof. split; [apply no_early_dec; reflexivity|]. vm_compute. reflexivity. Qed.

(** C139.  A group's listener is told (on_destroy) before the group is gone, so that the application can drop what it keeps
    for it.  Full statement: for every history; true if there is no crash. *)
Theorem c139_told_partial : forall l s g, no_early l -> ECrash ∉ l -> run init l = Some s ->
  left_ (out s) g = true -> rds s !! g = None -> told (out s) g = true.
Proof.
  intros l s g N C E L R. destruct (run_k l init s N C init_inv) with (g := g) as [T|[x X]]; auto.
  - now left.
  - intros k. discriminate.
  - intros k. cbn. now rewrite lookup_empty.
  - congruence.
Qed.
Print Assumptions c139_told_partial.

Example case139 : option_map (fun s => (left_ (out s) 7, rds s !! 7, told (out s) 7))
  (run init (make 7 ++ [ELeave 7; EStep 7; EGc 7; EStep 7; EStep 7; EStep 7; EStep 7; EStep 7]))
  = Some (true, None, true).
Proof. vm_compute. reflexivity. Qed.

(** With a crash after leave() and before the garbage collection: the next start drops the group's superblocks and its log
    device and calls nobody. *)
Theorem c139_told_refuted : exists l s, no_early l /\ run init l = Some s /\ md s = Run /\ fl s = ∅
  /\ left_ (out s) 7 = true /\ rds s !! 7 = None /\ told (out s) 7 = false.
Proof.
  pose (l := make 7 ++ [ELeave 7; EStep 7; ECrash; EBoot; EBootRd 7; EBootNext; EBootCfg 7; EBootNext; EBootDel 1; EBootNext]).
  assert (E : option_map (fun s => (md s, map_to_list (fl s), left_ (out s) 7, rds s !! 7, told (out s) 7)) (run init l)
              = Some (Run, [], true, None, false)) by (vm_compute; reflexivity).
  exists l. destruct (run init l) as [s|]; [|discriminate]. cbn [option_map] in E. exists s.
  split; [apply no_early_dec; reflexivity|]. injection E as E1 E2 E3 E4 E5. repeat split; auto.
  now apply map_to_list_empty_iff.
Qed.
Print Assumptions c139_told_refuted.

(** C140.  A server that starts works: it does not die, and every group it comes up with has its listener and keeps what is
    saved.  Full statement: for every history; true if no crash comes between the two superblock writes of a creation and
    no group is collected while leave() is under way. *)
Theorem c140_whole_partial : forall l s, no_early l -> whole init l -> run init l = Some s ->
  (forall w, md s <> Dead w) /\ (md s = Run -> forall g r, gs s !! g = Some r -> g_lis r = true).
Proof.
  intros l s N W E. destruct (run_j l init s N init_inv init_j W E) as (_ & J2 & J3). auto.
Qed.
Print Assumptions c140_whole_partial.

Fixpoint wholeb (s : st) (l : list ev) : bool :=
  match l with
  | [] => true
  | e :: l => match e with ECrash => forallb (fun p => match snd p with C3 _ => false | _ => true end) (map_to_list (fl s)) | _ => true end
              && match step s e with Some s' => wholeb s' l | None => true end
  end.
Lemma wholeb_ok l : forall s, wholeb s l = true -> whole s l.
Proof.
  induction l as [|e l IH]; intros s H; cbn in *; auto. apply andb_true_iff in H as [H1 H2]. split.
  - intros -> g ld Q. rewrite forallb_forall in H1. apply elem_of_map_to_list, elem_of_list_In in Q.
    specialize (H1 _ Q). discriminate.
  - destruct (step s e); auto.
Qed.
Example case140 : whole init case138.
Proof. apply wholeb_ok. vm_compute. reflexivity. Qed.

(** A crash between the two writes: the next start comes up with the group and without a listener for it, what raft saves
    for the group is lost by the next restart, and the first call of the raft server kills the server. *)
(** What the start that was last came up with for group 7. *)
Definition up7 (s : st) : option (N * bool * N) := match out s with OStarted up :: _ => up !! 7 | _ => None end.
Definition boot7 : list ev := [EBoot; EBootRd 7; EBootNext; EBootNext; EBootNext].
Theorem c140_torn_refuted : exists l s1 s2 s3, no_early l
  /\ run init (l ++ boot7) = Some s1 /\ md s1 = Run /\ up7 s1 = Some (1, false, 0)
  /\ run s1 ([ESave 7 5; ECrash] ++ boot7) = Some s2 /\ up7 s2 = Some (1, false, 0)
  /\ run s2 [ECall 7] = Some s3 /\ md s3 = Dead NoListener.
Proof.
  pose (l := [ECreate 7; EStep 7; EStep 7; EStep 7; ECrash]). exists l.
  assert (E1 : option_map (fun s => (md s, up7 s)) (run init (l ++ boot7)) = Some (Run, Some (1, false, 0))) by (vm_compute; reflexivity).
  assert (E2 : option_map up7 (match run init (l ++ boot7) with Some s => run s ([ESave 7 5; ECrash] ++ boot7) | None => None end)
               = Some (Some (1, false, 0))) by (vm_compute; reflexivity).
  assert (E3 : option_map md (match run init (l ++ boot7) with
                 Some s => match run s ([ESave 7 5; ECrash] ++ boot7) with Some s => run s [ECall 7] | None => None end | None => None end)
               = Some (Dead NoListener)) by (vm_compute; reflexivity).
  destruct (run init (l ++ boot7)) as [s1|]; [|discriminate].
  destruct (run s1 ([ESave 7 5; ECrash] ++ boot7)) as [s2|] eqn:R2; [|discriminate].
  destruct (run s2 [ECall 7]) as [s3|] eqn:R3; [|discriminate].
  cbn [option_map] in E1, E2, E3. exists s1, s2, s3. split; [apply no_early_dec; reflexivity|].
  injection E1 as E1 E1'. injection E2 as E2. injection E3 as E3. repeat split; auto.
Qed.
Print Assumptions c140_torn_refuted.

(** A group collected while leave() has set the stage and not yet written destroy_pending: after a crash the group's log
    device is gone and every later start dies. *)
Theorem c140_early_refuted : exists l s, run init l = Some s /\ md s = Off
  /\ forall n, exists s', run s (concat (repeat [EBoot; EBootRd 7; EBootNext; EBootNext; ECrash] n) ++ [EBoot; EBootRd 7; EBootNext; EBootNext]) = Some s'
               /\ md s' = Dead NoMeta.
Proof.
  pose (l := make 7 ++ [ELeave 7; EGcEarly 7; EStep 7; EStep 7; EStep 7; ECrash]). exists l.
  pose (d := [EBoot; EBootRd 7; EBootNext; EBootNext]).
  assert (E1 : option_map md (run init l) = Some Off) by (vm_compute; reflexivity).
  assert (E2 : option_map md (match run init l with Some s => run s d | None => None end) = Some (Dead NoMeta)) by (vm_compute; reflexivity).
  destruct (run init l) as [s|] eqn:R; [|discriminate]. exists s. split; auto.
  cbn [option_map] in E1. injection E1 as E1. split; auto.
  assert (L : run s (d ++ [ECrash]) = Some s).
  { assert (X : (match run init l with Some s => run s (d ++ [ECrash]) | None => None end) = run init l) by (vm_compute; reflexivity).
    rewrite R in X. exact X. }
  assert (APP : forall a b s0, run s0 (a ++ b) = match run s0 a with Some s1 => run s1 b | None => None end).
  { induction a as [|e a IH]; intros b s0; cbn; auto. destruct (step s0 e); auto. }
  assert (Q : forall n, run s (concat (repeat (d ++ [ECrash]) n)) = Some s).
  { induction n as [|n IH]; [reflexivity|]. cbn [repeat concat]. rewrite APP, L. exact IH. }
  destruct (run s d) as [s'|] eqn:D; cbn [option_map] in E2; [|discriminate E2]. injection E2 as E2.
  intros n. exists s'. split; auto. change [EBoot; EBootRd 7; EBootNext; EBootNext; ECrash] with (d ++ [ECrash]).
  rewrite APP, Q. exact D.
Qed.
Print Assumptions c140_early_refuted.
