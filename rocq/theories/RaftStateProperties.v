(** Properties C155-C157: what a replica remembers of raft over crashes. *)
From Coq Require Import List ZArith Lia Bool String.
From Verif Require Import RaftStateModel RaftStateSpec RaftStateProofs.
Import ListNotations.
Open Scope string_scope.
Open Scope Z_scope.

(** ** C155: term and vote *)

(** Whatever came before, a replica comes up again, with the last state whose
    write took place. *)
Theorem c155_state_survives : forall K me g l r,
  run K me (start g) l = Some r -> cur r = None ->
  exists r', step K me r Boot = Some r' /\ cur r' = Some (last_state l).
Proof.
  intros K me g l r R C. apply reach in R. unfold step. rewrite C, (i_disk _ _ _ _ R).
  eexists. split; reflexivity.
Qed.
Print Assumptions c155_state_survives.

(** Over all crashes, a replica votes for one candidate in a term. *)
Theorem c155_one_vote : forall K me g l r t c c',
  run K me (start g) l = Some r -> In (t, c) (votes l) -> In (t, c') (votes l) -> c = c'.
Proof. intros K me g l r t c c' R. apply (proj2 (kept_all _ _ _ _ _ R)). Qed.
Print Assumptions c155_one_vote.

(** Its term does not fall below one it has voted in. *)
Theorem c155_term_kept : forall K me g l r o t c,
  run K me (start g) l = Some r -> cur r = Some o -> In (t, c) (votes l) -> t <= term o.
Proof.
  intros K me g l r o t c R C X. assert (I := reach _ _ _ _ _ R).
  destruct (i_cur _ _ _ _ I o C) as [-> _].
  destruct (proj1 (kept_all _ _ _ _ _ R) t c X) as [_ [Y|[Y _]]]; lia.
Qed.
Print Assumptions c155_term_kept.

(** A state saved in the older format is read, with its term and vote, and the
    next save replaces it. *)
Definition older (st : sst) (j : json) : json :=
  set "state" (JObj [("term", JNum (term st)); ("voted_for", JNum (voted st));
     ("election_timer_allowed", JBool (election st)); ("catching_up", JBool (catching st))]) j.

Theorem c155_upgrade : forall K g st st',
  read_state K (older st (created g)) = Read (Sst (term st) (voted st) (election st) (catching st) false) /\
  read_state K (put_state K st' (older st (created g))) = Read st'.
Proof.
  intros K g [t v e c r] st'. split; [reflexivity|]. apply read_put. apply obj_set.
Qed.
Print Assumptions c155_upgrade.

(** ** C156: membership *)

(** What load_config returns is the last configuration whose write took place:
    all fields, and all servers in order; before the first, this server alone. *)
Theorem c156_config_survives : forall K me g l r o,
  run K me (start g) l = Some r -> cur r = Some o ->
  exists c, load_config me (mem r) = Some c /\
    match last_cfg l with Some c0 => same c0 c | None => c = alone me end.
Proof.
  intros K me g l r o R C. apply reach in R. destruct (i_cur _ _ _ _ R o C) as (_ & _ & S1).
  unfold load_config. assert (S2 := says_with _ _ _ S1). unfold says in S2.
  destruct (last_cfg l) as [c0|].
  - rewrite S2. cbn [bind]. rewrite cfg_round. eexists. split; [reflexivity|]. repeat split.
  - destruct S2 as [S2|S2].
    + exfalso. unfold with_config in S2. destruct (get "config" (mem r)) eqn:E; [congruence|].
      rewrite get_set in S2. discriminate.
    + rewrite S2. cbn [bind]. rewrite cfg_round. eexists. split; reflexivity.
Qed.
Print Assumptions c156_config_survives.

(** The same of a replica that comes up. *)
Theorem c156_config_after_boot : forall K me g l r r',
  run K me (start g) l = Some r -> cur r = None -> step K me r Boot = Some r' ->
  exists c, load_config me (mem r') = Some c /\
    match last_cfg l with Some c0 => same c0 c | None => c = alone me end.
Proof.
  intros K me g l r r' R C E.
  assert (R2 : run K me (start g) (l ++ [Boot]) = Some r') by (rewrite run_app, R; cbn [run]; now rewrite E).
  replace (last_cfg l) with (last_cfg (l ++ [Boot])) by (rewrite last_cfg_snoc; reflexivity).
  destruct (cur r') as [o|] eqn:C2; [eapply c156_config_survives; eauto|].
  exfalso. unfold step in E. rewrite C in E. destruct (read_state K (disk r)); [|discriminate].
  injection E as <-. discriminate.
Qed.
Print Assumptions c156_config_after_boot.

(** *** A codec and a run *)

Definition z_of (b : bool) : Z := if b then 1 else 0.
Definition enc0 (s : sst) : list Z := [1; term s; voted s; z_of (election s); z_of (catching s); z_of (receiving s)].
Definition dec0 (l : list Z) : option sst :=
  match l with
  | [v; t; c; e; k; r] => if v =? 1 then Some (Sst t c (e =? 1) (k =? 1) (r =? 1)) else None
  | _ => None
  end.
Definition K0 : codec.
Proof.
  refine (Codec enc0 dec0 _ _).
  - intros [t v [] [] []]; reflexivity.
  - intros s. discriminate.
Defined.

Definition me1 := Srv 1 0 "a:1" "x" false 100.
Definition sv2 := Srv 2 0 "b:1" "y" true 50.
Definition two := Cfg 7 3 false "ctx" [Some me1; None; Some sv2].
Definition votes_of t c := Sst t c true false false.

Definition good : list ev :=
  [Load; Save (votes_of 3 2); SetCfg two; Crash; Boot; Load; Save (votes_of 4 none);
   SaveCrash (votes_of 4 1) false; Boot; Save (votes_of 4 2); CfgCrash (alone sv2) false].

Example good_ok :
  option_map (fun r => cur r) (run K0 me1 (start "g") good) = Some None /\
  votes good = [(3, 2); (4, 2)] /\ last_state good = votes_of 4 2 /\ last_cfg good = Some two /\
  option_map (fun r => load_config me1 (mem r)) (run K0 me1 (start "g") (good ++ [Boot])) =
    Some (Some (Cfg 7 3 false "ctx" [Some me1; Some sv2])).
Proof. vm_compute. repeat split. Qed.

(** ** C157: a state that cannot be read *)

(** Bytes that nuraft cannot read (of another version, or damaged) are taken for
    no state: the replica is back in term 0 and can vote again in a term it has
    voted in. *)
Theorem c157_unreadable_refuted : forall K bad, bad <> [] -> dec K bad = None ->
  forall me st, voted st <> none -> 0 < term st -> forall c, c <> none -> c <> voted st ->
  forall g, exists r r1 r2,
    run K me (start g) [Save st; Crash] = Some r /\
    step K me (Rep (mem r) (set "nuraft_state" (JArr (map JNum bad)) (disk r)) None) Boot = Some r1 /\
    cur r1 = Some fresh /\
    step K me r1 (Save (Sst (term st) c true false false)) = Some r2.
Proof.
  intros K bad NB DB me st V T c NC CV g.
  assert (F : follows fresh st = true) by (apply follows_iff; left; exact T).
  assert (F2 : follows fresh (Sst (term st) c true false false) = true) by (apply follows_iff; left; exact T).
  unfold run. unfold step at 1. cbn [cur start mem]. rewrite F. cbn [step cur].
  eexists. eexists. eexists. split; [reflexivity|]. cbn [mem disk cur].
  assert (E : empty (JArr (map JNum bad)) = false) by (destruct bad; [congruence|reflexivity]).
  assert (RD : read_state K (set "nuraft_state" (JArr (map JNum bad)) (put_state K st (created g))) = Read fresh).
  { unfold read_state, at_. rewrite get_set, E. rewrite andb_false_r. cbn [negb].
    rewrite (all_map as_num JNum) by reflexivity. cbn [bind]. now rewrite DB. }
  split; [|split].
  - unfold step. cbn [cur disk]. rewrite RD. reflexivity.
  - reflexivity.
  - unfold step. cbn [cur mem]. rewrite F2. reflexivity.
Qed.
Print Assumptions c157_unreadable_refuted.

Example unreadable : [2; 5; 1; 1; 0; 0] <> [] /\ dec K0 [2; 5; 1; 1; 0; 0] = None.
Proof. split; [discriminate|reflexivity]. Qed.

(** A state in the older format that lacks a field is not taken for damaged, as
    the code means to: the exception is not the one that is caught, and the
    replica does not come up. *)
Theorem c157_legacy_refuted : forall K me g t v b,
  step K me (Rep JNull (set "state" (JObj [("term", JNum t); ("voted_for", JNum v); ("catching_up", JBool b)]) (created g)) None) Boot = None.
Proof. intros. reflexivity. Qed.
Print Assumptions c157_legacy_refuted.

(** Back and forth between releases: a release that writes the older format and
    leaves the fields it does not know (such a release is not in the repository;
    the comment at raft_repl_dev.cpp:2237 has it in view) does not replace
    "nuraft_state".  A replica that saved [st] with this release, was rolled back,
    saved [st'] there and is upgraded again, takes up [st]: it forgets every vote
    since. *)
Theorem c157_rollback_refuted : forall K g st st',
  read_state K (older st' (put_state K st (created g))) = Read st.
Proof.
  intros K g st st'. unfold read_state, older, put_state, at_.
  rewrite get_set. rewrite !(get_set_ne "nuraft_state" "state") by (try apply obj_set; discriminate). rewrite get_set.
  assert (N := enc_ne K st).
  assert (E : empty (JArr (map JNum (enc K st))) = false) by (destruct (enc K st); [congruence|reflexivity]).
  rewrite E. rewrite andb_false_r. cbn [negb]. rewrite (all_map as_num JNum) by reflexivity. cbn [bind]. now rewrite enc_dec.
Qed.
Print Assumptions c157_rollback_refuted.

Example rolled_back :
  read_state K0 (older (votes_of 9 2) (put_state K0 (votes_of 3 1) (created "g"))) = Read (votes_of 3 1) /\
  follows (votes_of 3 1) (votes_of 9 1) = true /\ follows (votes_of 9 2) (votes_of 9 1) = false.
Proof. vm_compute. repeat split. Qed.
