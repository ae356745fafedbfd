(** * The meta service: theorems (C28, C29, C30, C64). *)
From Coq Require Import ZArith NArith List Bool Lia Arith Permutation.
From Verif Require Import Base MetaModel MetaSpec MetaProofs MetaOps MetaReach.
Import ListNotations.
Open Scope nat_scope.

(** ** C28: a call that a crash cuts short happened or did not happen *)
(** Cut after any number of block writes of a call on a service that held a record: restart
    succeeds, and finds the records (and holds the blocks) from before the call or from after it. *)
Theorem c28_atomic e s r o ws s1 : env_ok e -> reach e (Up s) r None -> legal e s r o -> call e o s = Some (ws, s1) -> r <> [] ->
  forall k, exists ws' s' r', boot e (puts (s_disk s) (firstn k ws)) = Some (ws', s') /\ collect (recover e s') = Some r' /\
    (Permutation r' r /\ (forall b, s_used s' b = s_used s b) \/ Permutation r' (after o r) /\ (forall b, s_used s' b = s_used s1 b)).
Proof.
  intros HE HR HL HC HN k. destruct (reach_inv _ _ _ _ HE HR) as (l & U & P). destruct (call_ok e s l r o HE U P HL) as (ws0 & s0 & l' & E & U' & A & _ & C). rewrite HC in E. injection E as <- <-.
  assert (HS : after o (map (absx e (s_disk s)) l) <> []) by (eapply after_some; eauto; eapply legal_perm; eauto).
  destruct (C k) as [[C1 C2]|[C1 C2]].
  - destruct (boot_recovers e _ l HE C1) as (ws' & s' & r' & B1 & B2 & B3 & B4); [eapply perm_some; eauto|]. exists ws', s', r'. ands; auto. left. split; [rewrite B3, C2; now symmetry|]. eapply used_same; eauto.
  - destruct (boot_recovers e _ l' HE C1) as (ws' & s' & r' & B1 & B2 & B3 & B4); [intros ->; cbn in C2; congruence|]. exists ws', s', r'. ands; auto. right. split; [rewrite B3, C2; apply after_perm; now symmetry|]. eapply used_same; eauto.
Qed.
(** The same for any disk the machine went down with, restarts cut short in turn included. *)
Theorem c28_restart e d r alt : env_ok e -> reach e (Down d) r alt -> r <> [] ->
  exists ws s r', boot e d = Some (ws, s) /\ collect (recover e s) = Some r' /\ (Permutation r' r \/ exists r2, alt = Some r2 /\ Permutation r' r2).
Proof.
  intros HE HR HN. destruct (reach_inv _ _ _ _ HE HR) as (l & D & P). assert (HL : l <> []). { destruct P as [P|(r2 & _ & N2 & P)]; eapply perm_some; eauto. }
  destruct (boot_recovers e d l HE D HL) as (ws & s & r' & B1 & B2 & B3 & _). exists ws, s, r'. ands; auto. destruct P as [P|(r2 & E & _ & P)]; [left|right; exists r2; split; [exact E|]]; rewrite B3; now symmetry.
Qed.

(** ** C30: what is recovered are the live records, each once *)
Theorem c30_live e s r : env_ok e -> reach e (Up s) r None -> exists r', collect (recover e s) = Some r' /\ Permutation r' r /\ NoDup (map handle r').
Proof.
  intros HE HR. destruct (reach_inv _ _ _ _ HE HR) as (l & U & P). destruct (recover_ok e s l U) as (r' & R1 & R2). exists r'. ands; [exact R1|rewrite R2; now symmetry|].
  eapply Permutation_NoDup; [symmetry; apply Permutation_map; exact R2|]. rewrite handle_abs. apply bids_nodup. pose proof (d_apart _ _ _ (u_disk _ _ _ U)) as HN. now inversion HN.
Qed.
Theorem c30_restart e s r : env_ok e -> reach e (Up s) r None -> r <> [] ->
  exists s' r', boot e (s_disk s) = Some ([], s') /\ collect (recover e s') = Some r' /\ Permutation r' r /\ forall b, s_used s' b = s_used s b.
Proof.
  intros HE HR HN. destruct (reach_inv _ _ _ _ HE HR) as (l & U & P). destruct (boot_recovers e (s_disk s) l HE (u_disk _ _ _ U)) as (ws & s' & r' & B1 & B2 & B3 & B4); [eapply perm_some; eauto|].
  assert (HW : ws = []). { eapply boot_quiet; eauto. apply (u_disk _ _ _ U). apply (u_meta _ _ _ U). } subst ws.
  exists s', r'. ands; auto; [rewrite B3; now symmetry|]. eapply used_same; eauto.
Qed.
(** No call that is allowed fails an assertion or uses a null pointer. *)
Theorem c30_no_crash e s r o : env_ok e -> reach e (Up s) r None -> legal e s r o -> call e o s <> None.
Proof.
  intros HE HR HL. destruct (reach_inv _ _ _ _ HE HR) as (l & U & P). destruct (call_ok e s l r o HE U P HL) as (ws0 & s0 & l' & E & _). congruence.
Qed.

(** ** C29: records of any size *)
(** A record of any length reads back as it was given. *)
Theorem c29_any_size e s r t data b hdrs exts : env_ok e -> reach e (Up s) r None -> legal e s r (OAdd t data b hdrs exts) ->
  exists ws s1, add e t data b hdrs exts s = Some (ws, s1) /\ recover1 e s1 (t, b) = Some (b, t, data).
Proof.
  intros HE HR HL. destruct (reach_inv _ _ _ _ HE HR) as (l & U & P). destruct (call_ok e s l r _ HE U P HL) as (ws & s1 & l' & E & U1 & A & _). exists ws, s1. split; [exact E|].
  assert (HI : In (b, t, data) (map (absx e (s_disk s1)) l')) by (rewrite A; cbn [after]; apply in_or_app; right; now left). apply in_map_iff in HI. destruct HI as (x & HX & HI).
  pose proof (recover1_ok e s1 l' x U1 HI) as HRC. rewrite HX in HRC. unfold absx in HX. injection HX as H1 H2 H3. rewrite H1, H2 in HRC. exact HRC.
Qed.
Theorem c29_any_size_update e s r data b hdrs exts : env_ok e -> reach e (Up s) r None -> legal e s r (OUpdate b data hdrs exts) ->
  exists ws s1 t, update e b data hdrs exts s = Some (ws, s1) /\ recover1 e s1 (t, b) = Some (b, t, data).
Proof.
  intros HE HR HL. destruct (reach_inv _ _ _ _ HE HR) as (l & U & P). destruct (call_ok e s l r _ HE U P HL) as (ws & s1 & l' & E & U1 & A & _).
  destruct HL as (HB & _). rewrite (Permutation_in_iff (Permutation_map handle P)) in HB. apply in_map_iff in HB. destruct HB as (rc & H1 & H2). exists ws, s1, (snd (fst rc)). split; [exact E|].
  assert (HI : In (fst rc, data) (map (absx e (s_disk s1)) l')). { rewrite A. cbn [after]. apply in_map_iff. exists rc. rewrite H1, N.eqb_refl. auto. } apply in_map_iff in HI. destruct HI as (x & HX & HI).
  pose proof (recover1_ok e s1 l' x U1 HI) as HRC. rewrite HX in HRC. unfold absx in HX. injection HX as H3 H4. unfold handle in H1. rewrite <- H3 in *. cbn [fst snd] in *. rewrite <- H1 in *. exact HRC.
Qed.
(** Writing it touches the blocks it was given, and the header of another record or the super
    block when that gets a new link. *)
Theorem c29_own_blocks e s r t data b hdrs exts ws s1 : env_ok e -> reach e (Up s) r None -> legal e s r (OAdd t data b hdrs exts) -> add e t data b hdrs exts s = Some (ws, s1) ->
  forall c, In c (map fst ws) -> In c (b :: hdrs ++ flat_map blocks exts) \/ c = e_ssb e \/ In c (map handle r).
Proof.
  intros HE HR HL HA c HC. destruct (reach_inv _ _ _ _ HE HR) as (l & U & P). destruct HL as [F R]. pose proof (fr_diff _ _ _ F) as FN. inversion FN as [|? ? _ FN']; subst.
  unfold add in HA. match type of HA with context [fill e ?m0 data hdrs exts] => destruct (fill_ok e m0 data hdrs exts HE R FN') as (m & os & ws0 & P1 & _ & _ & _ & _ & P6 & P7 & _) end.
  rewrite P1 in HA. rewrite (u_last _ _ _ U) in HA. destruct (exists_last_or_nil l) as [->|(A & y & ->)].
  - injection HA as <- _. rewrite map_app, P6 in HC. apply in_app_or in HC. destruct HC as [HC|[<-|[<-|[]]]]; [left; right; auto|left; now left|right; now left].
  - rewrite lastof_app in *. destruct (A ++ [y]) as [|h0 t0] eqn:EA; [destruct A; discriminate|]. rewrite <- EA in *.
    assert (HY : In y (A ++ [y])) by (apply in_or_app; right; now left). rewrite (u_metas _ _ _ U y HY) in HA. injection HA as <- _. rewrite map_app, P6 in HC. apply in_app_or in HC. destruct HC as [HC|[<-|[<-|[]]]]; [left; right; auto|left; now left|].
    right. right. rewrite (Permutation_in_iff (Permutation_map handle P)). rewrite handle_abs. apply (in_map (fun x : item => bid x)). exact HY.
Qed.
Theorem c29_own_blocks_update e s r data b hdrs exts ws s1 : env_ok e -> reach e (Up s) r None -> legal e s r (OUpdate b data hdrs exts) -> update e b data hdrs exts s = Some (ws, s1) ->
  forall c, In c (map fst ws) -> In c (b :: hdrs ++ flat_map blocks exts).
Proof.
  intros HE HR HL HA c HC. destruct HL as (_ & F & R). pose proof (fr_diff _ _ _ F) as FN. unfold update in HA. destruct (s_metas s b) as [m0|]; [|discriminate].
  match type of HA with context [fill e ?m0 data hdrs exts] => destruct (fill_ok e m0 data hdrs exts HE R FN) as (m & os & ws0 & P1 & _ & _ & _ & _ & P6 & P7 & _) end.
  rewrite P1 in HA. destruct (free_chain _ _ _); [|discriminate]. injection HA as <- _. rewrite map_app, P6 in HC. apply in_app_or in HC. destruct HC as [HC|[<-|[]]]; [right; auto|now left].
Qed.

(** ** Concrete runs *)
Definition fresh_b (e : env) (s : st) (l : list N) : bool := nodup_b l && forallb (fun b => negb (s_used s b) && (b <? e_size e)%N) l.
Lemma nodup_b_sound l : nodup_b l = true -> NoDup l.
Proof. induction l as [|x l IH]; cbn; [constructor|]. rewrite andb_true_iff, negb_true_iff, in_b_false. intros [H1 H2]. constructor; auto. Qed.
Lemma fresh_b_sound e s l : fresh_b e s l = true -> fresh e s l.
Proof.
  unfold fresh_b. rewrite andb_true_iff, forallb_forall. intros [H1 H2]. constructor; [now apply nodup_b_sound|]. intros b HB. apply H2 in HB. rewrite andb_true_iff, negb_true_iff, N.ltb_lt in HB. exact HB.
Qed.
(** [room] but for [ro_fits]. *)
Definition room0_b (e : env) (data : list Z) (hdrs : list N) (exts : list ext) : bool :=
  forallb (fun x => 0 <? snd x) exts && (fold_right (fun x a => snd x + a) 0 exts =? nblocks (e_bs e) (length (stored e data))) && (length exts <=? length hdrs * max_ids e).
Definition fits_b (e : env) (n : nat) : bool := (n <=? max_ids e) || negb ((n - 1) mod max_ids e =? 0).
Definition big_b (e : env) (data : list Z) : bool := ctx_sz e <? length (stored e data).
Lemma room_b_sound e data hdrs exts : implb (big_b e data) (room0_b e data hdrs exts && fits_b e (length exts)) = true -> big e data -> room e data hdrs exts.
Proof.
  intros H HB. assert (E : big_b e data = true) by (now apply Nat.ltb_lt). rewrite E in H. cbn [implb] in H. unfold room0_b, fits_b in H. rewrite !andb_true_iff, forallb_forall, orb_true_iff, negb_true_iff, Nat.eqb_eq, !Nat.leb_le, Nat.eqb_neq in H.
  destruct H as [[[H1 H2] H3] H4]. constructor; auto. intros x HX. apply H1 in HX. now apply Nat.ltb_lt in HX.
Qed.
Definition legal_b (e : env) (s : st) (r : list rec) (o : op) : bool :=
  match o with
  | OAdd t data b hdrs exts => fresh_b e s (b :: hdrs ++ flat_map blocks exts) && implb (big_b e data) (room0_b e data hdrs exts && fits_b e (length exts))
  | OUpdate b data hdrs exts => in_b b (map handle r) && (fresh_b e s (hdrs ++ flat_map blocks exts) && implb (big_b e data) (room0_b e data hdrs exts && fits_b e (length exts)))
  | ORemove b => in_b b (map handle r) && (2 <=? length r)
  end.
Lemma legal_b_sound e s r o : legal_b e s r o = true -> legal e s r o.
Proof.
  destruct o as [t data b hdrs exts|b data hdrs exts|b]; cbn [legal_b legal]; rewrite ?andb_true_iff, ?in_b_in, ?Nat.leb_le.
  - intros [H1 H2]. split; [now apply fresh_b_sound|now apply room_b_sound].
  - intros (H1 & H2 & H3). split; [exact H1|]. split; [now apply fresh_b_sound|now apply room_b_sound].
  - tauto.
Qed.
Fixpoint run (e : env) (ops : list op) (s : st) (r : list rec) : option (st * list rec) :=
  match ops with
  | [] => Some (s, r)
  | o :: q => if legal_b e s r o then match call e o s with Some (_, s') => run e q s' (after o r) | None => None end else None
  end.
Lemma run_reach e ops : forall s r s' r', reach e (Up s) r None -> run e ops s r = Some (s', r') -> reach e (Up s') r' None.
Proof.
  induction ops as [|o q IH]; intros s r s' r' HR H; cbn [run] in H; [now injection H as <- <-|]. destruct (legal_b e s r o) eqn:EL; [|discriminate]. destruct (call e o s) as [[ws s1]|] eqn:EC; [|discriminate].
  eapply IH; [|exact H]. eapply r_call; eauto. now apply legal_b_sound.
Qed.
(** Blocks of 528 bytes: 16 bytes fit in a meta block, 2 ids in an overflow header. A run of equal bytes is compressed. *)
Definition zip0 (l : list Z) : option (list Z) := match l with 7%Z :: r => if forallb (Z.eqb 7) r then Some [7; Z.of_nat (length l)]%Z else None | _ => None end.
Definition unzip0 (l : list Z) : list Z := match l with [7; n]%Z => repeat 7%Z (Z.to_nat n) | _ => l end.
Definition env0 : env := Env 528 100 0 (fold_right Z.add 0%Z) (fun t => t =? 1) zip0 unzip0.
Lemma env0_ok : env_ok env0.
Proof.
  constructor; [cbn; lia|reflexivity|]. intros d l H. cbn in *. unfold zip0 in H. destruct d as [|z d]; [discriminate|]. destruct z as [|p|p]; try discriminate. do 3 (destruct p as [p|p|]; try discriminate). destruct (forallb (Z.eqb 7) d) eqn:E; [|discriminate].
  injection H as <-. cbn [unzip0]. change (Z.pos (Pos.of_succ_nat (length d))) with (Z.of_nat (S (length d))). rewrite Nat2Z.id. cbn [repeat]. f_equal. clear -E. induction d as [|z d IH]; [reflexivity|].
  cbn [forallb] in E. apply andb_true_iff in E. destruct E as [E1 E2]. apply Z.eqb_eq in E1. cbn. rewrite IH by exact E2. congruence.
Qed.
Definition bytes0 (n : nat) : list Z := map (fun i => Z.of_nat (i mod 5)) (seq 0 n).
Definition ops0 : list op :=
  [OAdd 1 (bytes0 10) 1 [] []; OAdd 1 (bytes0 2000) 2 [3; 4]%N [(20%N, 1); (22%N, 1); (24%N, 1); (30%N, 1)]; OAdd 2 (repeat 7%Z 600) 5 [] [];
   OUpdate 1 (bytes0 40) [6]%N [(40%N, 1)]; OAdd 3 (bytes0 30) 7 [8]%N [(41%N, 1)]; ORemove 5].
Definition end0 := match run env0 ops0 (format env0 (fun _ => BData [])) [] with Some x => x | None => (format env0 (fun _ => BData []), []) end.
Lemma end0_reach : reach env0 (Up (fst end0)) (snd end0) None.
Proof. eapply (run_reach env0 ops0); [constructor|]. vm_compute. reflexivity. Qed.
Example end0_some : map (fun x => (fst x, length (snd x))) (snd end0) = [(1%N, 1, 40); (2%N, 1, 2000); (7%N, 3, 30)].
Proof. vm_compute. reflexivity. Qed.
(** C28: an update of the big record cut at every point; the links of a removed record are mended. *)
Definition remove0 := ORemove 2.
Example c28_case : legal_b env0 (fst end0) (snd end0) remove0 = true /\ legal_b env0 (fst end0) (snd end0) (OUpdate 2 (bytes0 1500) [10; 11]%N [(50%N, 3)]) = true /\
  (match call env0 remove0 (fst end0) with Some (ws, _) => match boot env0 (puts (s_disk (fst end0)) (firstn 1 ws)) with Some (m, s') => (length ws, length m, option_map (map handle) (collect (recover env0 s'))) | None => (0, 0, None) end | None => (0, 0, None) end)
  = (2, 1, Some [1; 7]%N).
Proof. vm_compute. auto. Qed.

(** ** What does not hold *)
(** C30 without "not the only record": the next add uses a null pointer, and a restart fails an assertion. *)
Theorem c30_remove_only_refuted : exists e s r b ws s1, env_ok e /\ reach e (Up s) r None /\ map handle r = [b] /\ remove e b s = Some (ws, s1) /\
  add e 1 [1%Z] 2 [] [] s1 = None /\ boot e (s_disk s1) = None.
Proof.
  destruct (run env0 [OAdd 1 [1%Z] 1 [] []] (format env0 (fun _ => BData [])) []) as [[s r]|] eqn:E; [|vm_compute in E; discriminate].
  assert (HR : reach env0 (Up s) r None) by (eapply run_reach; [constructor|exact E]). vm_compute in E. injection E as <- <-.
  do 4 eexists. eexists _, _. split; [exact env0_ok|]. split; [exact HR|]. split; [reflexivity|]. split; [vm_compute; reflexivity|]. split; vm_compute; reflexivity.
Qed.
(** A restart before the first record was added fails an assertion. *)
Theorem c30_empty_restart_refuted e d : boot e (s_disk (format e d)) = None.
Proof. unfold boot, format. cbn [s_disk]. now rewrite put1_same. Qed.
(** C29 without [fits]: with one id too many for the headers, the data runs on behind the last
    id it knows, here over the data of another record. *)
Theorem c29_one_id_too_many_refuted : exists e s r t data b hdrs exts ws s1 b0 t0 d0, env_ok e /\ reach e (Up s) r None /\
  fresh e s (b :: hdrs ++ flat_map blocks exts) /\ room0_b e data hdrs exts = true /\ big e data /\
  add e t data b hdrs exts s = Some (ws, s1) /\ In (b0, t0, d0) r /\ recover1 e s1 (t0, b0) <> Some (b0, t0, d0).
Proof.
  destruct (run env0 [OAdd 1 (bytes0 20) 1 [2]%N [(12%N, 1)]] (format env0 (fun _ => BData [])) []) as [[s r]|] eqn:E; [|vm_compute in E; discriminate].
  assert (HR : reach env0 (Up s) r None) by (eapply run_reach; [constructor|exact E]).
  exists env0, s, r, 1, (bytes0 1200), 3%N, [4; 5]%N, [(10%N, 1); (11%N, 1); (20%N, 1)]. vm_compute in E. injection E as <- <-.
  eexists _, _, _, _, _. split; [exact env0_ok|]. split; [exact HR|]. split; [apply fresh_b_sound; vm_compute; reflexivity|]. split; [vm_compute; reflexivity|]. split; [apply Nat.ltb_lt; vm_compute; reflexivity|].
  split; [vm_compute; reflexivity|]. split; [left; reflexivity|]. vm_compute. discriminate.
Qed.
(** C64: reading without a restart gives the bytes on disk, for a compressed record not those it was given. *)
Theorem c64_read_compressed_refuted : exists e s r b t d, env_ok e /\ reach e (Up s) r None /\ In (b, t, d) r /\ recover1 e s (t, b) = Some (b, t, d) /\ read_sub1 e s (t, b) <> Some (b, t, d).
Proof.
  destruct (run env0 [OAdd 2 (repeat 7%Z 600) 5 [] []] (format env0 (fun _ => BData [])) []) as [[s r]|] eqn:E; [|vm_compute in E; discriminate].
  assert (HR : reach env0 (Up s) r None) by (eapply run_reach; [constructor|exact E]). vm_compute in E. injection E as <- <-.
  eexists env0, _, _, _, _, _. split; [exact env0_ok|]. split; [exact HR|]. split; [left; reflexivity|]. split; vm_compute; [reflexivity|discriminate].
Qed.
(** Where compression changes nothing, it does. *)
Theorem c64_read_plain e s r b t d : env_ok e -> (forall l, e_unzip e l = l) -> reach e (Up s) r None -> In (b, t, d) r -> read_sub1 e s (t, b) = Some (b, t, d).
Proof.
  intros HE HZ HR HI. destruct (reach_inv _ _ _ _ HE HR) as (l & U & P). apply (Permutation_in _ P) in HI. apply in_map_iff in HI. destruct HI as (x & HX & HI). unfold absx in HX. injection HX as H1 H2 H3. unfold read_sub1. cbn [snd].
  rewrite <- H1, (u_metas _ _ _ U x HI), (read_raw_ok e s l x U HI). cbn [option_map]. rewrite H2. f_equal. f_equal. rewrite <- H3. unfold content. destruct (b_zip (fst x)); [symmetry; apply HZ|reflexivity].
Qed.
Definition env1 : env := Env 528 100 0 (fold_right Z.add 0%Z) (fun t => t =? 1) (fun _ => None) (fun l => l).
Example c64_read_plain_case : env_ok env1 /\ exists s r, reach env1 (Up s) r None /\ In (1%N, 1, bytes0 20) r.
Proof.
  split; [constructor; [cbn; lia|reflexivity|discriminate]|].
  destruct (run env1 [OAdd 1 (bytes0 20) 1 [2]%N [(12%N, 1)]] (format env1 (fun _ => BData [])) []) as [[s r]|] eqn:E; [|vm_compute in E; discriminate].
  exists s, r. split; [eapply run_reach; [constructor|exact E]|]. vm_compute in E. injection E as _ <-. left. reflexivity.
Qed.

Print Assumptions c28_atomic.
Print Assumptions c28_restart.
Print Assumptions c30_live.
Print Assumptions c30_restart.
Print Assumptions c30_no_crash.
Print Assumptions c29_any_size.
Print Assumptions c29_any_size_update.
Print Assumptions c29_own_blocks.
Print Assumptions c29_own_blocks_update.
Print Assumptions c30_remove_only_refuted.
Print Assumptions c30_empty_restart_refuted.
Print Assumptions c29_one_id_too_many_refuted.
Print Assumptions c64_read_compressed_refuted.
Print Assumptions c64_read_plain.
