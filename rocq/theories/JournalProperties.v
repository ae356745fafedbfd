(** * C15: space handed out by a journal.  C16: truncation.  C56: restart.
    C24, C57: what fails (refuted). *)
From Coq Require Import NArith ZArith List Lia Bool Sorting.Sorted.
From Verif Require Import Base JournalModel JournalSpec JournalProofs.
Import ListNotations.
Local Open Scope Z_scope.

(** The states a journal descriptor reaches from its creation. *)
Definition reached (cs : Z) (ld : N) (w : world) (g : ghost) : Prop :=
  exists pv m ops, no_head ld pv /\ legal_run cs ld (start_world pv m) start_ghost ops /\
                   run cs ld (start_world pv m) start_ghost ops = Some (w, g).

Lemma reached_good : forall cs ld w g, 0 < cs -> reached cs ld w g -> good cs ld w g.
Proof.
  intros cs ld w g Hcs (pv & m & ops & H1 & H2 & H3).
  destruct (run_good cs ld ops _ _ Hcs (start_good cs ld pv m Hcs H1) H2) as (w' & g' & E & G). congruence.
Qed.

(** ** C15 *)
(** No legal call fails an assertion. *)
Theorem c15_defined : forall cs ld w g o, 0 < cs -> reached cs ld w g -> legal cs ld w g o ->
  exists w' ans, step cs ld w o = Some (w', ans) /\ (forall sz nid, o = OAlloc sz nid -> exists x, ans = Some x).
Proof.
  intros cs ld w g o Hcs R L. assert (G := reached_good cs ld w g Hcs R).
  destruct (step_good cs ld w g o Hcs G L) as (w' & ans & E & _).
  exists w', ans. split; [exact E|]. intros sz nid ->. destruct G as [I _].
  destruct (alloc_inv cs ld w g sz nid Hcs I L) as (w2 & x & E2 & _). exists x. congruence.
Qed.

(** All ranges ever handed out follow one another without overlap, each in one chunk. *)
Theorem c15_ranges : forall cs ld w g, 0 < cs -> reached cs ld w g ->
  increasing (g_ranges g) /\ (forall r, In r (g_ranges g) -> 0 < snd r < cs /\ one_chunk cs r).
Proof.
  intros cs ld w g Hcs R. destruct (reached_good cs ld w g Hcs R) as [(q & s0 & SH & CH & GR & CO) _].
  split; [apply (gr_inc _ _ _ _ _ GR)|]. intros r Hr.
  destruct (gr_slot _ _ _ _ _ GR r Hr) as (mm & o & Hf & Ho & Hs & Hl). split; [lia|].
  unfold one_chunk. rewrite Hf. replace (mm * cs + o + snd r - 1) with (mm * cs + (o + snd r - 1)) by lia.
  rewrite !div_at by lia. reflexivity.
Qed.

(** The range given for a request starts at or after the end of every earlier one. *)
Theorem c15_append : forall cs ld w g sz nid w' x, 0 < cs -> reached cs ld w g -> legal cs ld w g (OAlloc sz nid) ->
  step cs ld w (OAlloc sz nid) = Some (w', Some x) ->
  (forall r, In r (g_ranges g) -> before r (x, sz)) /\ one_chunk cs (x, sz) /\ j_start (w_d w') <= x /\
  tail (w_d w') = Some (x + sz).
Proof.
  intros cs ld w g sz nid w' x Hcs R L E. destruct (reached_good cs ld w g Hcs R) as [I _].
  destruct (alloc_inv cs ld w g sz nid Hcs I L) as (w2 & x2 & E2 & I2 & A1 & A2 & A3 & A4).
  assert (w2 = w') by congruence. assert (x2 = x) by congruence. subst. ands; auto.
  - destruct A2 as (mm & o & Hf & Ho & Hs & Hl). cbn [fst snd] in *. unfold one_chunk; cbn [fst snd].
    rewrite Hf. replace (mm * cs + o + sz - 1) with (mm * cs + (o + sz - 1)) by lia. rewrite !div_at by lia. reflexivity.
  - rewrite <- A4. eapply tail_some; eauto.
Qed.

(** Until truncated, a range is addressable: it is one stretch of one chunk. *)
Theorem c15_addressable : forall cs ld w g r, 0 < cs -> reached cs ld w g -> In r (g_ranges g) -> j_start (w_d w) <= fst r ->
  exists c o, In c (j_chunks (w_d w)) /\ 0 <= o /\ o + snd r < cs /\
    forall x, within x r -> where_is cs w x = Some (c, o + (x - fst r)).
Proof.
  intros cs ld w g r Hcs R Hr Hs. destruct (reached_good cs ld w g Hcs R) as [I _].
  destruct (pending_place cs ld w g r Hcs I Hr Hs) as (q & s0 & k & c & o & A1 & A2 & A3 & A4 & A5 & A6 & A7 & _).
  exists c, o. ands; auto; [eapply nth_error_In; eauto|]. intros x Hx. unfold within in Hx. unfold where_is.
  replace x with ((q + Z.of_nat k) * cs + (o + (x - fst r))) at 1 by lia.
  rewrite (otc_at cs (w_d w) q s0 k c) by (auto; lia). reflexivity.
Qed.

(** Different offsets are at different places. *)
Theorem c15_distinct : forall cs ld w g x y p, 0 < cs -> reached cs ld w g ->
  where_is cs w x = Some p -> where_is cs w y = Some p -> x = y.
Proof.
  intros cs ld w g x y p Hcs R Hx Hy. destruct (reached_good cs ld w g Hcs R) as [(q & s0 & SH & _) _].
  assert (H : forall z, where_is cs w z = Some p ->
            exists k, nth_error (j_chunks (w_d w)) k = Some (fst p) /\ z = (q + Z.of_nat k) * cs + snd p).
  { intros z Hz. unfold where_is, offset_to_chunk in Hz. rewrite (sh_start _ _ _ _ _ SH), round_down_at in Hz by (apply SH || lia).
    destruct (Z.ltb_spec (z - q * cs) 0); [discriminate|].
    assert (F : forall l i o c j o', find_chunk cs l i o = Some (c, j, o') ->
      exists k, nth_error l k = Some c /\ o = Z.of_nat k * cs + o').
    { induction l as [|a l IH]; intros i o c j o' E; cbn [find_chunk] in E; [discriminate|].
      destruct (Z.leb_spec cs o).
      - destruct (IH _ _ _ _ _ E) as (k & K1 & K2). exists (S k). split; [exact K1|lia].
      - injection E as <- _ <-. exists 0%nat. split; [reflexivity|lia]. }
    destruct (find_chunk cs (j_chunks (w_d w)) 0 (z - q * cs)) as [[[c i] o]|] eqn:E; [|discriminate].
    injection Hz as <-. destruct (F _ _ _ _ _ _ E) as (k & K1 & K2). exists k. split; [exact K1|cbn; lia]. }
  destruct (H x Hx) as (k & K1 & ->). destruct (H y Hy) as (k' & K1' & ->).
  assert (k = k') by (eapply nodup_nth_eq; eauto; apply SH). now subst.
Qed.

(** ** C16 *)
(** Every byte written at or after the start reads back, whatever happened in between. *)
Theorem c16_read : forall cs ld w g x, 0 < cs -> reached cs ld w g -> written g x -> j_start (w_d w) <= x ->
  read_byte cs w x = Some (g_file g x).
Proof.
  intros cs ld w g x Hcs R (r & Hr & Hnp & Hx) Hs. destruct (reached_good cs ld w g Hcs R) as [I _].
  assert (Hrs : j_start (w_d w) <= fst r).
  { destruct I as (q & s0 & _ & _ & GR & _). destruct (gr_live _ _ _ _ _ GR r Hr) as [B|B]; [|exact B]. unfold within in Hx. lia. }
  destruct (pending_place cs ld w g r Hcs I Hr Hrs) as (q & s0 & k & c & o & A1 & A2 & A3 & A4 & A5 & A6 & A7 & SH & CH & GR & CO).
  unfold within in Hx. assert (Ex : x = (q + Z.of_nat k) * cs + (o + (x - fst r))) by lia.
  unfold read_byte, pread. assert (Eo := otc_at cs (w_d w) q s0 k c (o + (x - fst r)) Hcs A1 A2 A3 ltac:(lia)).
  rewrite <- Ex in Eo. rewrite Eo. destruct (Z.ltb_spec (cs - (o + (x - fst r))) 1); [lia|]. cbn [Z.eqb Pos.eqb].
  f_equal. rewrite (CO k c (o + (x - fst r)) A3 ltac:(lia)); rewrite <- Ex; [reflexivity|]. exists r. auto.
Qed.

(** Truncation moves nothing at or after the point, releases only chunks with nothing there,
    and starts the log at the point if it is the start of a range. *)
Theorem c16_truncate : forall cs ld w g t now, 0 < cs -> reached cs ld w g -> legal cs ld w g (OTrunc t now) ->
  exists d' ws gone, truncate cs ld (w_d w) (w_pv w) t now = Some (d', ws, gone) /\
    (forall c, In c (j_chunks (w_d w)) <-> In c gone \/ In c (j_chunks d')) /\
    (forall r x, In r (g_ranges g) -> t <= fst r -> within x r ->
       j_start d' <= x /\
       exists c o, where_is cs w x = Some (c, o) /\ ~ In c gone /\
                   where_is cs (World d' (put_privs (w_pv w) ws) (w_mem w)) x = Some (c, o)) /\
    (forall r, In r (g_ranges g) -> t = fst r -> j_start d' = t).
Proof.
  intros cs ld w g t now Hcs R L. destruct (reached_good cs ld w g Hcs R) as [I _].
  destruct (trunc_inv cs ld w g t now Hcs I L) as (d' & ws & gone & j & E & I' & A1 & A2 & A3 & A4 & A5 & A6 & A7).
  exists d', ws, gone. split; [exact E|]. ands.
  - intro c. rewrite A2, A3. rewrite <- (firstn_skipn j (j_chunks (w_d w))) at 1. apply in_app_iff.
  - intros r x Hr Ht Hx. split; [specialize (A4 r Hr Ht); unfold within in Hx; lia|].
    destruct (A5 r Hr Ht x Hx) as [B1 B2]. unfold where_is; cbn [w_d].
    destruct (offset_to_chunk cs (w_d w) x) as [[[c i] o]|] eqn:E1; [|congruence].
    destruct (offset_to_chunk cs d' x) as [[[c' i'] o']|] eqn:E2; cbn in B2; [|discriminate].
    injection B2 as -> ->. exists c, o. ands; auto. rewrite A2. intro G.
    assert (S : In c (skipn j (j_chunks (w_d w)))).
    { rewrite <- A3. unfold offset_to_chunk in E2. destruct (_ <? 0); [discriminate|].
      clear -E2. revert E2. generalize (x - round_down (j_start d') cs), 0%nat. induction (j_chunks d') as [|a l IH]; intros z n E; cbn [find_chunk] in E; [discriminate|].
      destruct (Z.leb cs z); [right; eapply IH; eauto|left; congruence]. }
    destruct I as (q & s0 & SH & _). eapply skipn_firstn_disj; eauto. apply SH.
  - intros r Hr Ht. apply A6. eauto.
Qed.

(** ** C56 *)
(** A restart finds the same chunks and the same start; every range kept is where it was. *)
Theorem c56_restart : forall cs ld w g all t, 0 < cs -> reached cs ld w g -> legal cs ld w g (ORestart all t) ->
  exists w', step cs ld w (ORestart all t) = Some (w', None) /\
    j_chunks (w_d w') = j_chunks (w_d w) /\ j_start (w_d w') = j_start (w_d w) /\ tail (w_d w') = Some t /\
    (forall x, where_is cs w' x = where_is cs w x) /\ (forall x, read_byte cs w' x = read_byte cs w x) /\
    (forall r, In r (g_ranges g) -> ~ In r (g_pending g) -> fst r + snd r <= t).
Proof.
  intros cs ld w g all t Hcs R L. destruct (reached_good cs ld w g Hcs R) as [I LP].
  destruct (restart_inv cs ld w g all t Hcs I LP L) as (w' & E & I' & LP' & A1 & A2 & A3 & A4 & A5 & A6).
  exists w'. split; [exact E|]. rewrite <- A6. ands; auto.
  - eapply tail_some; eauto.
  - intro x. unfold where_is, offset_to_chunk. rewrite A3, A4. reflexivity.
  - intro x. unfold read_byte, pread, offset_to_chunk. rewrite A2, A3, A4. reflexivity.
  - intros r Hr Hnp. destruct I' as (q & s0 & _ & _ & GR & _).
    assert (Hin : In r (g_ranges (gstep g (ORestart all t) None))).
    { cbn [gstep g_ranges]. destruct L as (_ & _ & L3). destruct (g_pending g) as [|p [|p2 l2]] eqn:EP; [exact Hr| |contradiction].
      rewrite fold_drop1. apply drop_range_in. split; [exact Hr|]. intro Ef. apply Hnp. left.
      destruct I as (q' & s0' & _ & _ & GR' & _). destruct (gr_pend _ _ _ _ _ GR' p ltac:(rewrite EP; now left)) as [Hp _].
      destruct (gr_slot _ _ _ _ _ GR' p Hp) as (_ & _ & _ & _ & Hp2 & _). destruct (gr_slot _ _ _ _ _ GR' r Hr) as (_ & _ & _ & _ & Hr2 & _).
      destruct (inc_before _ _ _ (gr_inc _ _ _ _ _ GR') Hp Hr) as [B|[B|B]]; [exact B| |]; unfold before in B; lia. }
    apply (gr_tail _ _ _ _ _ GR r Hin).
Qed.

(** ** A case that meets the hypotheses: three chunks, a skip, a truncation, a restart *)
Definition ex_pv : privs := fun i => priv_fresh 100 (i + 1).
Definition ex_ops : list op :=
  [OAlloc 60 10; OWrite 0 (repeat 1%N 60); OAlloc 60 11; OWrite 100 (repeat 2%N 60); OAlloc 30 12; OWrite 160 (repeat 3%N 30);
   OAlloc 20 13; OWrite 200 (repeat 4%N 20); OTrunc 100 50; OOther 10 (Priv 7 true 60 100 0) 0 [9%N];
   OAlloc 50 14; ORestart [14; 13; 12; 11; 10]%N 220; OAlloc 85 15].

(** A checker for [legal], used for the example only. *)
Definition mem (c : N) (l : list N) : bool := existsb (N.eqb c) l.
Fixpoint nodupb (l : list N) : bool := match l with [] => true | c :: r => negb (mem c r) && nodupb r end.
Definition req (a b : Z * Z) : bool := (fst a =? fst b) && (snd a =? snd b).
Definition legalb (cs : Z) (ld : N) (w : world) (g : ghost) (o : op) : bool :=
  let d := w_d w in
  match o with
  | OAlloc sz nid =>
    let p := w_pv w nid in
    (0 <? sz) && (sz <? cs) && negb (N.eqb nid 0) && negb (mem nid (j_chunks d)) && N.ltb 0 (pv_created p) &&
    N.eqb (pv_logdev p) 0 && negb (pv_head p) && (pv_eoc p =? cs) && N.eqb (pv_next p) 0
  | OWrite x data => existsb (req (x, Z.of_nat (length data))) (g_pending g)
  | OTrunc t now => (j_start d <=? t) && N.ltb 0 now && existsb (fun r => (t =? fst r) || (t =? fst r + snd r)) (g_ranges g) &&
                    forallb (fun r => t <=? fst r) (g_pending g)
  | OOther c p _ _ => negb (mem c (j_chunks d)) && negb (pv_head p && N.eqb (pv_logdev p) ld)
  | ORestart all t => nodupb all && forallb (fun c => mem c all) (j_chunks d) &&
      match g_pending g with
      | [] => t =? j_start d + j_wsz d + j_resv d
      | [r] => (t =? fst r) && match rev (g_ranges g) with r' :: _ => req r r' | [] => false end
      | _ => false
      end
  end.
Fixpoint legal_runb (cs : Z) (ld : N) (w : world) (g : ghost) (ops : list op) : bool :=
  match ops with
  | [] => true
  | o :: r => legalb cs ld w g o &&
              match step cs ld w o with None => true | Some (w', ans) => legal_runb cs ld w' (gstep g o ans) r end
  end.

Lemma mem_In : forall c l, mem c l = true <-> In c l.
Proof.
  intros c l. unfold mem. rewrite existsb_exists. split.
  - intros (x & H & E). apply N.eqb_eq in E. now subst.
  - intro H. exists c. split; [exact H|apply N.eqb_refl].
Qed.
Lemma nodupb_ok : forall l, nodupb l = true -> NoDup l.
Proof.
  induction l as [|c l IH]; intro H; cbn in H; [constructor|]. apply andb_prop in H. destruct H as [H1 H2].
  constructor; [|auto]. rewrite <- mem_In. now destruct (mem c l).
Qed.
Lemma req_ok : forall a b, req a b = true -> a = b.
Proof. intros [a1 a2] [b1 b2] H. unfold req in H. cbn in H. apply andb_prop in H. f_equal; lia. Qed.

Lemma legalb_ok : forall cs ld w g o, legalb cs ld w g o = true -> legal cs ld w g o.
Proof.
  intros cs ld w g o H. destruct o as [sz nid|x data|t now|c p off data|all t]; cbn [legalb legal] in *;
    repeat match goal with H : _ && _ = true |- _ => apply andb_prop in H; destruct H end.
  - ands; try lia; auto.
    + rewrite <- mem_In. now destruct (mem nid _).
    + exists (pv_created (w_pv w nid)). split; [lia|]. destruct (w_pv w nid) as [a b c e f]. cbn in *. unfold priv_fresh.
      destruct b; [discriminate|]. f_equal; lia.
  - apply existsb_exists in H. destruct H as (r & Hr & E). apply req_ok in E. now subst.
  - ands; try lia.
    + apply existsb_exists in H1. destruct H1 as (r & Hr & E). exists r. split; [exact Hr|]. lia.
    + intros r Hr. rewrite forallb_forall in H0. specialize (H0 r Hr). lia.
  - split; [rewrite <- mem_In; now destruct (mem c _)|]. intros [E1 E2]. rewrite E1, E2, N.eqb_refl in H0. discriminate.
  - ands; [now apply nodupb_ok| |].
    + intros c Hc. rewrite forallb_forall in H1. now apply mem_In, H1.
    + destruct (g_pending g) as [|r [|r2 l]]; [lia| |discriminate].
      apply andb_prop in H0. destruct H0 as [H2 H3]. split; [lia|].
      destruct (rev (g_ranges g)) as [|r' l] eqn:E; [discriminate|]. apply req_ok in H3. subst r'. exists (rev l).
      rewrite <- (rev_involutive (g_ranges g)), E. reflexivity.
Qed.
Lemma legal_runb_ok : forall cs ld ops w g, legal_runb cs ld w g ops = true -> legal_run cs ld w g ops.
Proof.
  intros cs ld; induction ops as [|o ops IH]; intros w g H; cbn [legal_runb legal_run] in *; [exact I|].
  apply andb_prop in H. destruct H as [H1 H2]. split; [now apply legalb_ok|].
  destruct (step cs ld w o) as [[w' ans]|]; auto.
Qed.

Example ex_no_head : no_head 1 ex_pv.
Proof. intros c [H _]. discriminate. Qed.
Example ex_legal : legal_run 100 1 (start_world ex_pv (fun _ _ => 0%N)) start_ghost ex_ops.
Proof. apply legal_runb_ok. vm_compute. reflexivity. Qed.

Definition chunks_after (n : nat) : option (list N * Z * list (Z * Z)) :=
  match run 100 1 (start_world ex_pv (fun _ _ => 0%N)) start_ghost (firstn n ex_ops) with
  | Some (w, g) => Some (j_chunks (w_d w), j_start (w_d w), g_ranges g)
  | None => None
  end.
Example ex_run : map chunks_after [8; 9; 11; 12]%nat =
  [Some ([10; 11; 13]%N, 0, [(0, 60); (100, 60); (160, 30); (200, 20)]);
   Some ([11; 13]%N, 100, [(0, 60); (100, 60); (160, 30); (200, 20)]);
   Some ([11; 13]%N, 100, [(0, 60); (100, 60); (160, 30); (200, 20); (220, 50)]);
   Some ([11; 13]%N, 100, [(0, 60); (100, 60); (160, 30); (200, 20)])].
Proof. vm_compute. reflexivity. Qed.

Definition ex_world (n : nat) : world :=
  match run 100 1 (start_world ex_pv (fun _ _ => 0%N)) start_ghost (firstn n ex_ops) with Some (w, _) => w | None => start_world ex_pv (fun _ _ => 0%N) end.
Example ex_read : map (read_byte 100 (ex_world 13)) [99; 100; 159; 160; 189; 200; 219; 400] =
  [None; Some 2%N; Some 2%N; Some 3%N; Some 3%N; Some 4%N; Some 4%N; None].
Proof. vm_compute. reflexivity. Qed.

(** ** C57: an offset inside the unused end of a chunk.  The call is accepted (the offset is
    between the start and the tail), but the next range handed out overlaps a live one. *)
Definition hole_ops : list op :=
  [OAlloc 60 10; OWrite 0 (repeat 1%N 60); OAlloc 60 11; OWrite 100 (repeat 2%N 60)].
Theorem c57_truncate_in_hole_refuted : exists cs ld w g t now w1 s w2 x,
  0 < cs /\ reached cs ld w g /\ j_start (w_d w) <= t < j_start (w_d w) + j_wsz (w_d w) /\ g_pending g = [] /\
  step cs ld w (OTrunc t now) = Some (w1, Some s) /\
  legal cs ld w1 g (OAlloc 10 12) /\ step cs ld w1 (OAlloc 10 12) = Some (w2, Some x) /\
  exists r, In r (g_ranges g) /\ s <= fst r /\ within x r.
Proof.
  destruct (run 100 1 (start_world ex_pv (fun _ _ => 0%N)) start_ghost hole_ops) as [[w g]|] eqn:E; [|vm_compute in E; discriminate].
  exists 100, 1%N, w, g, 80, 50%N.
  assert (R : reached 100 1 w g).
  { exists ex_pv, (fun _ _ => 0%N), hole_ops. ands; [apply ex_no_head|apply legal_runb_ok; vm_compute; reflexivity|exact E]. }
  vm_compute in E. injection E as <- <-.
  eexists _, _, _, _. split; [lia|]. split; [exact R|].
  split; [cbn; lia|]. split; [reflexivity|]. split; [vm_compute; reflexivity|].
  split; [apply legalb_ok; vm_compute; reflexivity|].
  split; [vm_compute; reflexivity|]. exists (100, 60). cbn. unfold within; cbn. ands; auto; lia.
Qed.

(** ** C24, at the level of the journal: chunks are released and the new head is marked
    before the log device stores the new start.  A crash in between restarts with the old
    start: a retained range is no longer addressable, and offsets below the truncation point
    show its bytes. *)
Theorem c24_crash_before_start_saved_refuted : exists cs ld w g t now d' ws gone w2,
  0 < cs /\ reached cs ld w g /\ legal cs ld w g (OTrunc t now) /\ g_pending g = [] /\
  truncate cs ld (w_d w) (w_pv w) t now = Some (d', ws, gone) /\
  restart cs ld (put_privs (w_pv w) ws) [10; 11]%N (j_start (w_d w)) (j_start (w_d w)) = Some w2 /\
  exists r, In r (g_ranges g) /\ t <= fst r /\
    (forall x, within x r -> read_byte cs (World w2 (put_privs (w_pv w) ws) (w_mem w)) x = None) /\
    read_byte cs (World w2 (put_privs (w_pv w) ws) (w_mem w)) 0 = Some (g_file g (fst r)) /\
    Some (g_file g (fst r)) <> Some (g_file g 0).
Proof.
  destruct (run 100 1 (start_world ex_pv (fun _ _ => 0%N)) start_ghost hole_ops) as [[w g]|] eqn:E; [|vm_compute in E; discriminate].
  exists 100, 1%N, w, g, 100, 50%N.
  assert (R : reached 100 1 w g).
  { exists ex_pv, (fun _ _ => 0%N), hole_ops. ands; [apply ex_no_head|apply legal_runb_ok; vm_compute; reflexivity|exact E]. }
  vm_compute in E. injection E as <- <-.
  eexists _, _, _, _. split; [lia|]. split; [exact R|].
  split; [apply legalb_ok; vm_compute; reflexivity|]. split; [reflexivity|].
  split; [vm_compute; reflexivity|]. split; [vm_compute; reflexivity|].
  exists (100, 60). split; [cbn; auto|]. split; [cbn; lia|]. split.
  - intros x Hx. unfold within in Hx; cbn [fst snd] in Hx. unfold read_byte, pread, offset_to_chunk. cbn [w_d j_start j_chunks].
    change (round_down 0 100) with 0. destruct (Z.ltb_spec (x - 0) 0); [lia|].
    cbn [find_chunk]. destruct (Z.leb_spec 100 (x - 0)); [reflexivity|lia].
  - split; vm_compute; [reflexivity|congruence].
Qed.

Print Assumptions c15_defined.
Print Assumptions c15_ranges.
Print Assumptions c15_append.
Print Assumptions c15_addressable.
Print Assumptions c15_distinct.
Print Assumptions c16_read.
Print Assumptions c16_truncate.
Print Assumptions c56_restart.
Print Assumptions c57_truncate_in_hole_refuted.
Print Assumptions c24_crash_before_start_saved_refuted.
