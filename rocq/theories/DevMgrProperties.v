(** * What holds of starts over the drives of a server. *)
From Coq Require Import List Arith Lia Bool.
From Verif Require Import DevMgrModel DevMgrSpec DevMgrProofs DevMgrProofs2 DevMgrProofs3 DevMgrProofs4.
Import ListNotations.

(** ** C141: a server comes up on its drives, and they keep what they have *)
Theorem c141_comes_up c base s dl u num k :
  pools c base -> reach c (calm c base) s -> calm c base s (Start dl u num k) ->
  exists ws m, start c (dk s) dl u num = (ws, Up m) /\
    (length ws <= k -> mm (step c s (Start dl u num k)) = Some m) /\ forall d, In d (devs m) <-> In d dl.
Proof.
  intros PL R CM. destruct (start_ok c base s dl u num k PL (inv_reach c base s PL R) CM) as (_ & _ & ws & m & A & _ & B & _ & C).
  exists ws, m. auto.
Qed.
Theorem c141_memory c base s m : pools c base -> reach c (calm c base) s -> mm s = Some m ->
  (forall id d, In (id, d) (all m) <-> known (dk s) d id) /\ NoDup (map fst (all m)) /\
  (forall d, In d (devs m) <-> used (dk s) d) /\ (forall v, In v (vds m) <-> v < nv c) /\
  (forall x d v, In (x, d, v) (cs m) <-> held (dk s) x d v) /\ NoDup (map cid (cs m)).
Proof.
  intros PL R M. destruct (inv_reach c base s PL R) as [(_ & X)|(_ & X)]; [congruence|].
  destruct (X m M) as (A & B & C & D & E & F). auto 10.
Qed.
Theorem c141_keeps c base s e : pools c base -> reach c (calm c base) s -> calm c base s e ->
  (forall d id, known (dk s) d id -> known (dk (step c s e)) d id) /\
  forall x d v, held (dk s) x d v -> held (dk (step c s e)) x d v \/ exists k, e = DelChunk x k.
Proof.
  intros PL R CM. pose proof (inv_reach c base s PL R) as IV.
  assert (KK : keeps (dk s) (dk (step c s e)) -> (forall d id, known (dk s) d id -> known (dk (step c s e)) d id) /\
    forall x d v, held (dk s) x d v -> held (dk (step c s e)) x d v).
  { intros K. split.
    - intros d id (b & V & <-). destruct (K d b V) as ((b' & V' & P) & _). exists b'. auto.
    - intros x d v ((b & V) & I). destruct (K d b V) as ((b' & V' & P) & J). split; [eexists; eauto|auto]. }
  destruct e as [dl u num k|v d k|x k].
  - destruct KK as (A & B); [now apply (inv_step c base); cbn|]. auto.
  - destruct KK as (A & B); [now apply (inv_step c base); cbn|]. auto.
  - destruct (mm s) as [m|] eqn:M.
    + destruct IV as [(_ & X)|(LV & MO)]; [congruence|]. destruct (del_ok c base s m x k LV (MO m M) M) as (_ & B & C & _). split.
      * intros d id (b & V & <-). exists b. now rewrite B.
      * intros y d v H. destruct (Nat.eq_dec y x) as [->|N]; [eauto|]. left. now apply C.
    + cbn [step]. rewrite M. auto.
Qed.
Theorem c141_twice c dl D u num : (forall d, ~ used D d) -> ~ NoDup dl ->
  exists ws, start c D dl u num = (ws, Died Twice) /\ forall n d, ~ used (applies D (firstn n ws)) d.
Proof.
  intros FR ND. unfold start, format. destruct dl as [|z zs] eqn:Z; [destruct ND; constructor|]. rewrite <- Z in *.
  rewrite first_valid_none by auto. destruct (fmt (Hdr 1 (length dl) 0 u) dl) as [[h a] ws1] eqn:FM.
  destruct (fmt_spec dl _ h a ws1 FM) as (_ & _ & _ & _ & F5 & _ & F7 & _).
  assert (U : unique (applies D ws1) a = false).
  { unfold unique. set (g := fun d => match fb (applies D ws1 d) with Some b => pid b | None => 0 end).
    replace (map _ a) with (map g dl) by (rewrite <- F5, map_map; reflexivity).
    destruct (nodupb (map g dl)) eqn:Q; auto. apply nodupb_ok in Q. apply NoDup_map_inv in Q. tauto. }
  rewrite U. cbn [negb]. exists ws1. split; auto. intros n d.
  assert (FF : Forall (isfmt dl) (firstn n ws1)) by (rewrite Forall_forall in *; intros w I; apply F7; rewrite <- (firstn_skipn n ws1); apply in_app_iff; auto).
  destruct (fmt_prefix dl _ FF D) as (Q1 & Q2); [intros; now apply valid_none|].
  destruct (in_dec Nat.eq_dec d dl) as [I|I]; [now apply valid_none, Q2|]. unfold used. rewrite Q1 by auto. apply FR.
Qed.
Print Assumptions c141_comes_up.
Print Assumptions c141_memory.
Print Assumptions c141_keeps.
Print Assumptions c141_twice.

(** ** C142: a crash in the first start *)
(** Until the first drive is committed the next start is a first start again; once all are,
    it is a normal one. *)
Theorem c142_first_partial c base D u num : (forall d, ~ used D d) -> pools c base -> NoDup base ->
  exists w1 w2 m, start c D base u num = (w1 ++ w2, Up m) /\ length w2 = length base /\
    (forall n d, n <= length w1 -> ~ used (applies D (firstn n (w1 ++ w2))) d) /\
    (forall d, In d base -> used (applies D (w1 ++ w2)) d) /\
    forall x d v, In (x, d, v) (cs m) <-> held (applies D (w1 ++ w2)) x d v.
Proof.
  intros FR PL ND. destruct (format_ok c base D u num FR PL ND) as (w1 & w2 & m & A1 & A2 & _ & A3 & _ & A4 & A5 & _).
  exists w1, w2, m. split; [exact A1|]. split; [exact A2|]. split; [exact A3|]. split.
  - intros d I. destruct A4 as (_ & _ & B & _). auto.
  - apply A5.
Qed.
Print Assumptions c142_first_partial.

Definition blank : st := St (fun _ => Disk None [] []) None.
Definition ones (v d : nat) : nat := 1.
(** A data drive 0 and a fast drive 1, with one virtual device each. *)
Definition two : cfg := Cfg (fun d => Nat.eqb d 1) 2 (fun v => Nat.eqb v 1) (fun _ => false).
Definition commits (ws : list wr) : nat := length (filter (fun w => match w with WCommit _ _ _ => true | _ => false end) ws).
(** The crash after the first of the two commits: the next start reformats the fast drive and
    comes up without its virtual device. *)
Theorem c142_torn_refuted :
  ~ forall c base u num u' num' k s, pools c base -> NoDup base -> (forall d, ~ used (dk s) d) -> mm s = None ->
    let s1 := step c s (Start base u num k) in
    forall ws m, start c (dk s1) base u' num' = (ws, Up m) -> forall v, v < nv c -> In v (vds m).
Proof.
  intros H.
  assert (PL : pools two [0; 1]) by (split; [discriminate|]; intros v Hv; cbn in Hv; destruct v as [|[|v]]; [discriminate|discriminate|lia]).
  specialize (H two [0; 1] 7 ones 8 ones 7 blank PL ltac:(repeat constructor; cbn; lia) ltac:(intros d (b & V); discriminate) eq_refl). cbn zeta in H.
  destruct (start two (dk (step two blank (Start [0; 1] 7 ones 7))) [0; 1] 8 ones) as [ws r] eqn:E.
  assert (R : match r with Up m => vds m = [0] | Died _ => False end).
  { change r with (snd (ws, r)). rewrite <- E. vm_compute. reflexivity. }
  destruct r as [m|]; [|destruct R]. specialize (H ws m eq_refl 1 ltac:(cbn; lia)). rewrite R in H. destruct H as [H|[]]. discriminate.
Qed.
Print Assumptions c142_torn_refuted.

(** ** C143: starts with the drives in any order, or without some of them *)
Theorem c143_listed_partial c base s dl u num k :
  pools c base -> reach c (calm c base) s -> calm c base s (Start dl u num k) ->
  exists ws m, start c (dk s) dl u num = (ws, Up m) /\ (forall v, In v (vds m) <-> v < nv c) /\
    NoDup (map fst (all m)) /\ NoDup (map cid (cs m)) /\ forall x d v, held (dk s) x d v -> In (x, d, v) (cs m).
Proof.
  intros PL R (ND & (ext & E) & US & FRs). subst dl. destruct (inv_reach c base s PL R) as [(FR & _)|(LV & _)].
  - destruct (FRs FR) as (E & _). assert (ext = []) as ->.
    { apply (f_equal (@length nat)) in E. rewrite app_length in E. destruct ext; cbn in E; auto; lia. }
    rewrite app_nil_r in *. destruct (format_ok c base (dk s) u num FR PL ND) as (w1 & w2 & m & S1 & _ & _ & _ & _ & _ & M & _).
    destruct M as (M1 & M2 & M3 & M4 & M5 & M6). exists (w1 ++ w2), m. split; auto. split; [exact M4|]. split; [exact M1|]. split; [exact M5|].
    intros x d v (X & _). now apply FR in X.
  - destruct (load_ok c base (dk s) ext u num LV PL ND US) as (ws & m & S1 & S2 & M & _).
    destruct M as (M1 & M2 & M3 & M4 & M5 & M6). exists ws, m. split; auto. split; [exact M4|]. split; [exact M1|]. split; [exact M5|].
    intros x d v (X & I). apply M6. specialize (S2 (length ws)). rewrite firstn_all in S2. destruct S2 as (_ & K).
    destruct X as (b & V). destruct (K d b V) as ((b' & V' & _) & J). split; [eexists; eauto|auto].
Qed.
Print Assumptions c143_listed_partial.

(** Data drives only; virtual device 0 is on all of them, 1 is dynamic. *)
Definition dlog : cfg := Cfg (fun _ => false) 2 (fun _ => false) (fun v => Nat.eqb v 1).
(** What should hold if the order of the drives did not matter. *)
Definition any_order (s : st) (e : ev) : Prop :=
  match e with
  | Start dl _ _ k => NoDup dl /\ (forall d, used (dk s) d -> In d dl) /\ k >= 100 /\ dl <> []
  | _ => True
  end.
(** A second drive is added, and named first at the next start: the dynamic virtual device
    (the log) is gone. *)
Theorem c143_order_refuted :
  ~ forall c s m, (forall base, base <> [] -> pools c base) -> reach c any_order s -> mm s = Some m -> forall v, v < nv c -> In v (vds m).
Proof.
  intros H. set (s1 := step dlog blank (Start [0] 7 ones 100)). set (s2 := step dlog s1 (Start [0; 1] 8 ones 100)). set (s3 := step dlog s2 (Start [1; 0] 8 ones 100)).
  assert (R : reach dlog any_order s3).
  { repeat apply reach_step; [apply reach_init; intros d (b & V); discriminate| | |]; repeat split; try discriminate; try lia;
      try (repeat constructor; cbn; lia).
    - intros d (b & V). discriminate.
    - intros d (b & V). destruct d as [|d]; [now left|]. exfalso. revert V. vm_compute. discriminate.
    - intros d (b & V). destruct d as [|[|d]]; [right; now left|now left|]. exfalso. revert V. vm_compute. discriminate. }
  destruct (mm s3) as [m|] eqn:M; [|exfalso; revert M; vm_compute; discriminate].
  assert (E : option_map vds (mm s3) = Some [0]) by (vm_compute; reflexivity).
  rewrite M in E. cbn in E. injection E as E.
  assert (PL : forall base, base <> [] -> pools dlog base).
  { intros base B. split; auto. intros v _. destruct base as [|z zs]; [congruence|]. discriminate. }
  specialize (H dlog s3 m PL R M 1 ltac:(cbn; lia)). rewrite E in H. destruct H as [H|[]]. discriminate.
Qed.
Print Assumptions c143_order_refuted.

(** Some of the drives may be missing. *)
Definition some (s : st) (e : ev) : Prop :=
  match e with Start dl _ _ k => NoDup dl /\ dl <> [] /\ k >= 100 | _ => True end.
(** A chunk made while a drive is missing takes an id that the drive holds. *)
Theorem c143_missing_refuted :
  ~ forall c s m, (forall base, base <> [] -> pools c base) -> reach c some s -> mm s = Some m -> NoDup (map cid (cs m)).
Proof.
  intros H. set (s4 := fold_left (step dlog) [Start [0; 1] 7 ones 100; Start [0] 8 ones 100; NewChunk 1 0 100; Start [0; 1] 9 ones 100] blank).
  assert (R : reach dlog some s4).
  { unfold s4. cbn [fold_left]. repeat apply reach_step; [apply reach_init; intros d (b & V); discriminate| | | |]; repeat split; try discriminate; try lia;
      try (repeat constructor; cbn; lia). }
  destruct (mm s4) as [m|] eqn:M; [|exfalso; revert M; vm_compute; discriminate].
  assert (E : option_map (fun m => nodupb (map cid (cs m))) (mm s4) = Some false) by (vm_compute; reflexivity).
  rewrite M in E. cbn [option_map] in E. injection E as E.
  assert (PL : forall base, base <> [] -> pools dlog base).
  { intros base B. split; auto. intros v _. destruct base as [|z zs]; [congruence|]. discriminate. }
  specialize (H dlog s4 m PL R M). apply nodupb_ok in H. congruence.
Qed.
(** Drives added while others are missing get ids that those, or drives added elsewhere, have;
    a start with all of them uses a destroyed device. *)
Theorem c143_ids_refuted :
  ~ forall c s dl u num, (forall base, base <> [] -> pools c base) -> reach c some s -> some s (Start dl u num 100) ->
    snd (start c (dk s) dl u num) <> Died Dangling.
Proof.
  intros H. set (s4 := fold_left (step dlog) [Start [0; 1] 7 ones 100; Start [0; 2] 8 ones 100; Start [1; 3] 8 ones 100] blank).
  assert (R : reach dlog some s4).
  { unfold s4. cbn [fold_left]. repeat apply reach_step; [apply reach_init; intros d (b & V); discriminate| | |]; repeat split; try discriminate; try lia;
      try (repeat constructor; cbn; lia). }
  assert (PL : forall base, base <> [] -> pools dlog base).
  { intros base B. split; auto. intros v _. destruct base as [|z zs]; [congruence|]. discriminate. }
  apply (H dlog s4 [0; 1; 2; 3] 9 ones PL R).
  - repeat split; try discriminate; try lia. repeat constructor; cbn; lia.
  - vm_compute. reflexivity.
Qed.
Print Assumptions c143_missing_refuted.
Print Assumptions c143_ids_refuted.

(** ** C144: the flag for a start in degraded mode *)
Theorem c144_count_partial c base s dl u num k :
  pools c base -> reach c (calm c base) s -> calm c base s (Start dl u num k) ->
  exists ws m, start c (dk s) dl u num = (ws, Up m) /\ (degraded m = true <-> length dl <> length base).
Proof.
  intros PL R CM. destruct (start_ok c base s dl u num k PL (inv_reach c base s PL R) CM) as (_ & _ & ws & m & A & _ & _ & B & _).
  exists ws, m. split; auto. rewrite B, negb_true_iff, Nat.eqb_neq. lia.
Qed.
Definition missing (D : disks) (dl : list nat) : Prop := exists d, used D d /\ ~ In d dl.
(** After a drive was added the flag is set with no drive missing. *)
Theorem c144_false_alarm_refuted :
  ~ forall c s dl u num ws m, (forall base, base <> [] -> pools c base) -> reach c some s -> some s (Start dl u num 100) ->
    start c (dk s) dl u num = (ws, Up m) -> degraded m = true -> missing (dk s) dl.
Proof.
  intros H. set (s4 := fold_left (step dlog) [Start [0] 7 ones 100; Start [0; 1] 8 ones 100] blank).
  assert (R : reach dlog some s4).
  { unfold s4. cbn [fold_left]. repeat apply reach_step; [apply reach_init; intros d (b & V); discriminate| |]; repeat split; try discriminate; try lia;
      try (repeat constructor; cbn; lia). }
  assert (PL : forall base, base <> [] -> pools dlog base).
  { intros base B. split; auto. intros v _. destruct base as [|z zs]; [congruence|]. discriminate. }
  destruct (start dlog (dk s4) [0; 1] 9 ones) as [ws r] eqn:E.
  assert (Q : match r with Up m => degraded m = true | Died _ => False end).
  { change r with (snd (ws, r)). rewrite <- E. vm_compute. reflexivity. }
  destruct r as [m|]; [|destruct Q].
  destruct (H dlog s4 [0; 1] 9 ones ws m PL R) as (d & (b & V) & N); auto.
  - repeat split; try discriminate; try lia. repeat constructor; cbn; lia.
  - destruct d as [|[|d]]; [apply N; now left|apply N; right; now left|]. revert V. vm_compute. discriminate.
Qed.
(** With a drive replaced by a new one the flag is not set. *)
Theorem c144_no_alarm_refuted :
  ~ forall c s dl u num ws m, (forall base, base <> [] -> pools c base) -> reach c some s -> some s (Start dl u num 100) ->
    start c (dk s) dl u num = (ws, Up m) -> missing (dk s) dl -> degraded m = true.
Proof.
  intros H. set (s4 := fold_left (step dlog) [Start [0; 1] 7 ones 100] blank).
  assert (R : reach dlog some s4).
  { unfold s4. cbn [fold_left]. repeat apply reach_step; [apply reach_init; intros d (b & V); discriminate|]; repeat split; try discriminate; try lia;
      try (repeat constructor; cbn; lia). }
  assert (PL : forall base, base <> [] -> pools dlog base).
  { intros base B. split; auto. intros v _. destruct base as [|z zs]; [congruence|]. discriminate. }
  destruct (start dlog (dk s4) [0; 2] 9 ones) as [ws r] eqn:E.
  assert (Q : match r with Up m => degraded m = false | Died _ => False end).
  { change r with (snd (ws, r)). rewrite <- E. vm_compute. reflexivity. }
  destruct r as [m|]; [|destruct Q].
  assert (X : degraded m = true); [|congruence].
  apply (H dlog s4 [0; 2] 9 ones ws m PL R); auto.
  - repeat split; try discriminate; try lia. repeat constructor; cbn; lia.
  - exists 1. split; [|cbn; lia]. destruct (valid (dk s4 1)) eqn:V; [eexists; eauto|]. exfalso. revert V. vm_compute. discriminate.
Qed.
Print Assumptions c144_count_partial.
Print Assumptions c144_false_alarm_refuted.
Print Assumptions c144_no_alarm_refuted.

(** ** A history that meets the hypotheses *)
(** First start on drives 0 and 1; a chunk for the dynamic device; a crash while drive 2 is
    added; drive 2 again; a chunk is removed. *)
Definition h1 : st := step dlog blank (Start [0; 1] 7 ones 100).
Definition h2 : st := step dlog h1 (NewChunk 1 1 2).
Definition h3 : st := step dlog h2 (Start [0; 1; 2] 8 ones 2).
Definition h4 : st := step dlog h3 (Start [0; 1; 2] 9 ones 100).
Definition h5 : st := step dlog h4 (DelChunk 0 2).
Example c141_case : pools dlog [0; 1] /\ reach dlog (calm dlog [0; 1]) h5.
Proof.
  split; [split; [discriminate|intros v _; discriminate]|].
  assert (C : forall s dl u num k, NoDup dl -> (exists ext, dl = [0; 1] ++ ext) ->
    (forall d, used (dk s) d -> In d dl) -> used (dk s) 0 -> calm dlog [0; 1] s (Start dl u num k)).
  { intros s dl u num k A B E F. split; [exact A|]. split; [exact B|]. split; [exact E|]. intros G. destruct (G 0 F). }
  repeat apply reach_step; [apply reach_init; intros d (b & V); discriminate| | | | |]; try exact I.
  - cbn [calm]. split; [repeat constructor; cbn; lia|]. split; [exists []; reflexivity|]. split; [intros d (b & V); discriminate|].
    intros _. split; [reflexivity|]. intros _ d Id. destruct Id as [<-|[<-|[]]]; eexists; vm_compute; reflexivity.
  - apply C; [repeat constructor; cbn; lia|exists [2]; reflexivity| |eexists; vm_compute; reflexivity].
    intros d (b & V). destruct d as [|[|[|d]]]; [now left|right; now left|right; right; now left|]. exfalso. revert V. vm_compute. discriminate.
  - apply C; [repeat constructor; cbn; lia|exists [2]; reflexivity| |eexists; vm_compute; reflexivity].
    intros d (b & V). destruct d as [|[|[|d]]]; [now left|right; now left|right; right; now left|]. exfalso. revert V. vm_compute. discriminate.
Qed.
Example c141_case_end :
  option_map (fun m => (all m, vds m, cs m, degraded m)) (mm h4) =
    Some ([(1, 0); (2, 1); (3, 2)], [0; 1], [(0, 0, 0); (2, 0, 1); (1, 1, 0); (3, 1, 1); (4, 1, 1); (5, 2, 0)], true) /\
  option_map cs (mm h5) = Some [(2, 0, 1); (1, 1, 0); (3, 1, 1); (4, 1, 1); (5, 2, 0)].
Proof. split; vm_compute; reflexivity. Qed.
Example c141_case_twice : snd (start dlog (dk blank) [0; 1; 0] 7 ones) = Died Twice.
Proof. vm_compute. reflexivity. Qed.
