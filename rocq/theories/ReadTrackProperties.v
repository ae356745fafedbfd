(** * C32: frees wait for reads. *)
From Coq Require Import ZArith NArith List Bool Lia Arith.
From Verif Require Import Base ReadTrackModel ReadTrackSpec ReadTrackProofs.
Import ListNotations.

(** A free asked for while a read of one of its blocks was out completes after that read came back. *)
Theorem c32_waits s i w x xs : reach s -> is_read s i x -> is_free s w xs -> share x xs ->
  before (EGo i) (EAsk w) (t_log s) -> In (EFire w) (t_log s) -> before (EBack i) (EFire w) (t_log s).
Proof. intros HR H1 H2 H3 H4 H5. exact (v_safe s (reach_inv s HR) i w x xs H4 H1 H2 H3 H5). Qed.
(** No free completes twice. *)
Theorem c32_once s w l1 l2 : reach s -> t_log s = l1 ++ EFire w :: l2 -> ~ In (EFire w) (l1 ++ l2).
Proof.
  intros HR HL. pose proof (v_once s (reach_inv s HR)) as HN. rewrite HL, fired_app in HN. cbn in HN. fold (fired l2) in HN. apply NoDup_remove_2 in HN. rewrite <- fired_app in HN. now rewrite fired_in in HN.
Qed.
(** A free that has been asked for and has not completed waits for a read in flight near it. *)
Theorem c32_waiting_for s w xs : reach s -> is_free s w xs -> ~ busy s w -> ~ In (EFire w) (t_log s) ->
  exists i x, is_read s i x /\ busy s i /\ near x xs.
Proof.
  intros HR HF HB HN. pose proof (reach_inv s HR) as HV. destruct (v_live s HV w xs HF) as [H|[[k H]|H]]; [elim HB; intro E; rewrite E in H; destruct H| |contradiction].
  destruct (v_ws s HV k w H) as (xs' & HF' & HK). assert (xs' = xs) by (destruct HF, HF'; congruence). subst xs'. destruct H as (c & ws & E & _). destruct (found_read s k c ws HV E) as (i & x & H1 & H2 & H3). exists i, x. split; [exact H1|]. split; [exact H2|].
  destruct (v_free s HV w xs HF) as [[_ HXS] _]. destruct (v_read s HV i x H1) as [HX _]. exact (key_near x xs k HX HXS H3 HK).
Qed.
(** So when nothing is in flight every free that was asked for has completed. *)
Theorem c32_all_done s w : reach s -> (forall i, ~ busy s i) -> In (EAsk w) (t_log s) -> In (EFire w) (t_log s).
Proof.
  intros HR HQ HA. pose proof (reach_inv s HR) as HV. destruct (v_ask s HV w HA) as [xs HF]. destruct (in_dec Nat.eq_dec w (fired (t_log s))) as [H|H]; [now apply fired_in|].
  destruct (c32_waiting_for s w xs HR HF (HQ w)) as (i & x & _ & HB & _); [now rewrite <- fired_in|]. elim (HQ i HB).
Qed.
(** With no read in flight near it a free completes before the call returns. *)
Theorem c32_at_once s w xs s' : reach s -> is_free s w xs -> step w s = Some s' -> ~ busy s' w ->
  (forall i x, is_read s i x -> busy s i -> ~ near x xs) -> In (EFire w) (t_log s').
Proof.
  intros HR HF HS HB HN. assert (HR' : reach s') by (eapply r_step; eauto). destruct (in_dec Nat.eq_dec w (fired (t_log s'))) as [H|H]; [now apply fired_in|]. exfalso.
  assert (HJ : t_n s' = t_n s /\ t_job s' = t_job s /\ (forall j, j <> w -> t_ops s' j = t_ops s j)).
  { unfold step in HS. destruct (t_ops s w) as [|o r]; [injection HS as <-; auto|]. destruct o; repeat (match type of HS with context [match ?e with _ => _ end] => destruct e end); try discriminate; injection HS as <-; cbn; (split; [reflexivity|split; [reflexivity|]]); intros j HJ; now apply upd_other. }
  destruct HJ as (J1 & J2 & J3). destruct (c32_waiting_for s' w xs) as (i & x & HX & HBU & HNR); auto.
  - unfold is_free in *. now rewrite J1, J2.
  - now rewrite <- fired_in.
  - destruct (Nat.eq_dec i w) as [->|HI]; [contradiction|]. apply (HN i x); [unfold is_read in *; now rewrite J1, J2 in HX| |exact HNR]. unfold busy in *. now rewrite J3 in HBU.
Qed.
(** A count is never taken back that is not there. *)
Theorem c32_no_underflow s i : reach s -> step i s <> None.
Proof.
  intros HR HS. pose proof (reach_inv s HR) as HV. unfold step in HS. destruct (t_ops s i) as [|o r] eqn:HO; [discriminate|]. destruct o; repeat (match type of HS with context [match ?e with _ => _ end] => destruct e eqn:? end); try discriminate.
  destruct (reader s i _ r HV HO I) as (x & HX & HP). destruct (hold_dec x k r HP) as (Q1 & _). pose proof (v_cnt s HV k) as HC. rewrite Heqo in HC. assert (0 < cnt k (t_n s) (t_ops s)) by (apply cnt_pos; exists i; split; [exact (ops_lt s i _ r HV HO)|now rewrite HO]). lia.
Qed.

(** ** A run: two reads over three records, a free of two pieces in between. *)
Inductive act := S_ (j : job) | T_ (i : nat).
Fixpoint run (l : list act) (s : st) : option st :=
  match l with [] => Some s | S_ j :: r => run r (start j s) | T_ i :: r => match step i s with Some s' => run r s' | None => None end end.
Definition acts_ok (l : list act) : Prop := Forall (fun a => match a with S_ j => job_ok j | T_ _ => True end) l.
Lemma run_reach l : forall s s', reach s -> acts_ok l -> run l s = Some s' -> reach s'.
Proof.
  induction l as [|a l IH]; intros s s' HR HA HS; [now injection HS as <-|]. inversion HA; subst. destruct a as [j|i]; cbn in HS.
  - apply (IH (start j s)); auto. now constructor.
  - destruct (step i s) eqn:E; [|discriminate]. apply (IH s0); auto. econstructor; eauto.
Qed.
Definition sample : list act :=
  [S_ (JRead (1, 6, 12)%N); T_ 0; T_ 0; T_ 0; T_ 0; (* out, on records 0, 8, 16 *)
   S_ (JRead (1, 20, 2)%N); T_ 1; T_ 1;
   S_ (JFree [(1, 17, 1); (1, 40, 4)]%N); T_ 2; T_ 2; T_ 2; (* waits: the first read covers block 17 *)
   S_ (JFree [(1, 40, 4)]%N); T_ 3; T_ 3; (* nothing near: at once *)
   T_ 0; T_ 0; T_ 0; T_ 0; (* first read back; the second still holds record 16 *)
   T_ 1; T_ 1].
Example sample_ok : acts_ok sample.
Proof. repeat constructor; discriminate. Qed.
Example sample_log : option_map t_log (run sample init) = Some [EGo 0; EGo 1; EAsk 2; EAsk 3; EFire 3; EBack 0; EBack 1; EFire 2].
Proof. vm_compute. reflexivity. Qed.
Example sample_waits : exists s, reach s /\ is_read s 0 (1, 6, 12)%N /\ is_free s 2 [(1, 17, 1); (1, 40, 4)]%N /\ share (1, 6, 12)%N [(1, 17, 1); (1, 40, 4)]%N /\
  before (EGo 0) (EAsk 2) (t_log s) /\ In (EFire 2) (t_log s).
Proof.
  destruct (run sample init) as [s|] eqn:E; [|discriminate (eq_trans (eq_sym (f_equal (option_map t_log) E)) sample_log)]. exists s. split; [exact (run_reach sample init s r_init sample_ok E)|].
  vm_compute in E. injection E as <-. split; [|split; [|split; [|split]]].
  - split; [vm_compute; lia|reflexivity].
  - split; [vm_compute; lia|reflexivity].
  - exists (1, 17, 1)%N, (1, 17)%N. cbn. split; [now left|]. lia.
  - exists [], [EGo 1], [EAsk 3; EFire 3; EBack 0; EBack 1; EFire 2]. reflexivity.
  - cbn. tauto.
Qed.
(** Records are of eight blocks: a free also waits for reads of neighbouring blocks. *)
Example neighbour_waits : option_map t_log (run [S_ (JRead (1, 0, 1)%N); T_ 0; T_ 0; S_ (JFree [(1, 7, 1)]%N); T_ 1; T_ 1] init) = Some [EGo 0; EAsk 1].
Proof. vm_compute. reflexivity. Qed.
(** A read that starts after the free was asked for is not waited for. *)
Example late_read : option_map t_log (run [S_ (JFree [(1, 7, 1)]%N); T_ 0; S_ (JRead (1, 7, 1)%N); T_ 1; T_ 1; T_ 0] init) = Some [EAsk 0; EGo 1; EFire 0].
Proof. vm_compute. reflexivity. Qed.

Print Assumptions c32_waits.
Print Assumptions c32_once.
Print Assumptions c32_waiting_for.
Print Assumptions c32_all_done.
Print Assumptions c32_at_once.
Print Assumptions c32_no_underflow.
