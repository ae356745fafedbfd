(** * C27: sections on one thread. *)
From Coq Require Import ZArith List Bool Lia Arith.
From Verif Require Import Base CPGuardModel CPGuardSpec CPGuardProofs.
Import ListNotations.
Open Scope Z_scope.

(** Fair use never touches a deleted checkpoint, and is never refused. *)
Theorem c27_no_crash c u s a u' : together c u s -> fair u a u' -> (forall x, a <> GRetire x) -> exists s', gstep s a = GOk s'.
Proof.
  intros HT HF HA. pose proof (fair_ok u a u' s (together_inv _ _ _ HT) HF) as H. destruct (gstep s a); [destruct H as [x H]; elim (HA x H)|destruct H|eauto].
Qed.
Theorem c27_no_crash_retire c u s x : together c u s -> gstep s (GRetire x) <> GCrash.
Proof. intros _. cbn. destruct (_ && _); discriminate. Qed.
(** A section opened inside another one is in the checkpoint of the innermost open one,
    whatever is current; one opened outside is in the current checkpoint. *)
Theorem c27_nested_same c u s t g s' : together c u s -> ~ In g (u_names u) -> gstep s (GNew t g) = GOk s' ->
  section_cp s' g = match u_open u t with [] => Some (cur s) | h :: _ => section_cp s h end.
Proof.
  intros HT HN HS. pose proof (together_inv _ _ _ HT) as HV. cbn in HS. unfold gnew in HS. destruct (has _ _); [|discriminate]. injection HS as <-.
  unfold section_cp. cbn. rewrite Nat.eqb_refl. cbn. pose proof (i_stack _ _ HV t) as HF. destruct HF as [|h x l l' H HF]; [reflexivity|]. unfold cp_is in H. rewrite H. reflexivity.
Qed.
(** So all sections a thread opened by itself are in one checkpoint. *)
Inductive alone (c : Z) (t : nat) : uses -> gst -> Prop :=
| alone_init : alone c t unused (ginit c)
| alone_step u s a u' s' : alone c t u s -> fair u a u' -> gstep s a = GOk s' ->
    (forall g, a = GGet t g -> In g (u_open u t)) -> alone c t u' s'.
Lemma alone_together c t u s : alone c t u s -> together c u s.
Proof. induction 1; econstructor; eauto. Qed.
Theorem c27_one_checkpoint c t u s g h : alone c t u s -> In g (u_open u t) -> In h (u_open u t) -> section_cp s g = section_cp s h /\ section_cp s g <> None.
Proof.
  intro HA. assert (HK : exists x, forall y, In y (stacks s t) -> y = x).
  { induction HA as [|u s a u' s' HA [x IH] HF HS HG]; [exists 0; cbn; tauto|].
    pose proof (together_inv _ _ _ (alone_together _ _ _ _ HA)) as HV. destruct HF; cbn [gstep] in HS.
    - unfold gnew in HS. destruct (has _ _); [|discriminate]. injection HS as <-. cbn. unfold set_stack. destruct (Nat.eqb_spec t t0); [subst t0|eauto].
      destruct (stacks s t) as [|y r] eqn:ES; [exists (cur s); intros z [<-|[]]; reflexivity|]. exists x. intros z [<-|H']; apply IH; [now left|exact H'].
    - unfold gcopy in HS. destruct (gfind _ _); [|discriminate]. destruct (has _ _); [|discriminate]. injection HS as <-. exists x. exact IH.
    - destruct (Nat.eq_dec t t0) as [<-|Hne].
      + specialize (HG g0 eq_refl). cbn in HG. destruct (open_found _ _ t g0 HV HG) as (c1 & H1 & _). destruct (i_idle _ _ HV g0 H) as [c2 H2]. unfold cp_is in *. congruence.
      + unfold gget in HS. destruct (gfind _ _) as [q|]; [|discriminate]. destruct (g_pushed q); injection HS as <-; [eauto|]. cbn. unfold set_stack. destruct (Nat.eqb_spec t t0); [contradiction|eauto].
    - rewrite (use_same n i o t0 u g0 s HV H) in HS. injection HS as <-. eauto.
    - unfold gdestroy in HS. destruct (gfind _ _) as [q|]; [|discriminate]. destruct (_ && _); [|discriminate]. injection HS as <-. cbn. exists x. intros y HY. apply IH.
      destruct (g_pushed q), (stacks s t0) eqn:ES; try exact HY. unfold set_stack in HY. destruct (Nat.eqb_spec t t0); [subst; rewrite ES; now right|exact HY].
    - unfold gdestroy in HS. destruct (gfind _ _) as [q|]; [|discriminate]. destruct (_ && _); [|discriminate]. injection HS as <-. cbn. exists x. intros y HY. apply IH.
      destruct (g_pushed q), (stacks s t0) eqn:ES; try exact HY. unfold set_stack in HY. destruct (Nat.eqb_spec t t0); [subst; rewrite ES; now right|exact HY].
    - injection HS as <-. eauto.
    - destruct (_ && _); [|discriminate]. injection HS as <-. eauto. }
  destruct HK as [x HK]. pose proof (together_inv _ _ _ (alone_together _ _ _ _ HA)) as HV. intros HG HH.
  destruct (open_found _ _ t g HV HG) as (c1 & H1 & I1). destruct (open_found _ _ t h HV HH) as (c2 & H2 & I2). unfold section_cp, cp_is in *. rewrite H1, H2. cbn.
  rewrite (HK _ I1), (HK _ I2). split; [reflexivity|discriminate].
Qed.
(** A section never changes its checkpoint, and its checkpoint is not retired while it is open. *)
Theorem c27_stays c u s a u' s' g : together c u s -> fair u a u' -> gstep s a = GOk s' -> section_cp s g <> None -> (forall t, a <> GDestroy t g) ->
  section_cp s' g = section_cp s g.
Proof.
  intros HT HF HS HG HD. pose proof (together_inv _ _ _ HT) as HV. assert (HN : forall h, ~ In h (u_names u) -> h <> g).
  { intros h Hh ->. apply Hh, (i_used _ _ HV). unfold section_cp in HG. destruct (gfind g (guards s)) eqn:E; [|elim HG; reflexivity]. apply gfind_in in E. apply in_map_iff. eexists. split; [|exact E]. reflexivity. }
  unfold section_cp in *. destruct HF; cbn [gstep u_names] in *.
  - unfold gnew in HS. destruct (has _ _); [|discriminate]. injection HS as <-. cbn. destruct (Nat.eqb_spec g0 g); [elim (HN g0); assumption|reflexivity].
  - unfold gcopy in HS. destruct (gfind g0 _); [|discriminate]. destruct (has _ _); [|discriminate]. injection HS as <-. cbn. destruct (Nat.eqb_spec h g); [elim (HN h); assumption|reflexivity].
  - unfold gget in HS. destruct (gfind g0 _) as [q|] eqn:EQ; [|discriminate]. destruct (g_pushed q); injection HS as <-; [reflexivity|]. cbn. rewrite gfind_gset. destruct (Nat.eqb_spec g0 g); [|reflexivity]. subst. rewrite EQ. reflexivity.
  - rewrite (use_same n i o t u g0 s HV H) in HS. injection HS as <-. reflexivity.
  - unfold gdestroy in HS. destruct (gfind g0 _) as [q|]; [|discriminate]. destruct (_ && _); [|discriminate]. injection HS as <-. cbn. rewrite gfind_gdel. destruct (Nat.eqb_spec g0 g); [subst; elim (HD t); reflexivity|reflexivity].
  - unfold gdestroy in HS. destruct (gfind g0 _) as [q|]; [|discriminate]. destruct (_ && _); [|discriminate]. injection HS as <-. cbn. rewrite gfind_gdel. destruct (Nat.eqb_spec g0 g); [subst; elim (HD t); reflexivity|reflexivity].
  - injection HS as <-. reflexivity.
  - destruct (_ && _); [|discriminate]. injection HS as <-. reflexivity.
Qed.
(** The references to a checkpoint are the live objects: each is released exactly once, and a
    checkpoint can be retired exactly when it is not current and no object refers to it. *)
Theorem c27_references c u s x : together c u s -> held s x = live_on s x.
Proof. intro HT. apply (i_cnt _ _ (together_inv _ _ _ HT)). Qed.
Theorem c27_retired_when_free c u s x : together c u s -> ((exists s', gstep s (GRetire x) = GOk s') <-> x < cur s /\ forall g, section_cp s g <> Some x).
Proof.
  intro HT. pose proof (together_inv _ _ _ HT) as HV. cbn. split.
  - intros [s' H]. destruct (_ && _) eqn:E; [|discriminate]. apply andb_prop in E. destruct E as [E1 E2]. split; [lia|]. intros g HG. unfold section_cp in HG.
    destruct (gfind g (guards s)) as [q|] eqn:EQ; [|discriminate]. injection HG as HG. destruct (live_alive _ _ _ _ HV EQ) as [_ HR]. rewrite HG in HR. apply has_in in HR. rewrite HR in E2. discriminate.
  - intros [H1 H2]. replace (_ && _) with true; [eauto|]. symmetry. apply andb_true_intro. split; [lia|]. destruct (has x (refs s)) eqn:E; [|reflexivity]. exfalso. apply has_in in E.
    apply (count_occ_In Z.eq_dec) in E. rewrite (i_cnt _ _ HV) in E. unfold lv in E. destruct (filter _ (guards s)) as [|[g q] r] eqn:EF; [cbn in E; lia|].
    assert (HI : In (g, q) (filter (fun e => g_cp (snd e) =? x) (guards s))) by (rewrite EF; now left). apply filter_In in HI. destruct HI as [HI HQ]. cbn in HQ. apply Z.eqb_eq in HQ.
    destruct (in_gfind g (guards s)) as [q' Hq']; [apply in_map_iff; exists (g, q); auto|]. apply (H2 g). unfold section_cp. rewrite Hq'. cbn. f_equal.
    apply gfind_in in Hq'. pose proof (i_names _ _ HV) as ND. clear -ND HI Hq' HQ. induction (guards s) as [|[k z] l IH]; [destruct HI|]. inversion ND; subst. 
    destruct HI as [HI|HI], Hq' as [Hq|Hq]; try congruence; try (apply IH; assumption).
    + injection HI as -> ->. elim H1. apply in_map_iff. exists (g, q'). auto.
    + injection Hq as -> ->. elim H1. apply in_map_iff. exists (g, q). auto.
Qed.

(** ** A run: thread 1 opens section 1 and, after the switch, section 2 in it; a copy goes to
    thread 2, which has a section of its own in the new checkpoint and opens another one
    while it uses the copy. *)
Fixpoint grun (s : gst) (l : list gop) : gres :=
  match l with [] => GOk s | a :: r => match gstep s a with GOk s' => grun s' r | x => x end end.
Definition fair_b (u : uses) (a : gop) : option uses :=
  let inb g l := existsb (Nat.eqb g) l in
  match a with
  | GNew t g => if inb g (u_names u) then None else Some (Uses (g :: u_names u) (u_idle u) (on t (g :: u_open u t) (u_open u)))
  | GCopy g h => if inb h (u_names u) || negb (inb g (u_idle u)) && negb (existsb (fun t => inb g (u_open u t)) [0; 1; 2]%nat) then None
                 else Some (Uses (h :: u_names u) (h :: u_idle u) (u_open u))
  | GGet t g => if inb g (u_idle u) then Some (Uses (u_names u) (without g (u_idle u)) (on t (g :: u_open u t) (u_open u)))
                else if existsb (fun t => inb g (u_open u t)) [0; 1; 2]%nat then Some u else None
  | GDestroy t g => match u_open u t with
                    | h :: r => if Nat.eqb h g then Some (Uses (u_names u) (u_idle u) (on t r (u_open u)))
                                else if inb g (u_idle u) then Some (Uses (u_names u) (without g (u_idle u)) (u_open u)) else None
                    | [] => if inb g (u_idle u) then Some (Uses (u_names u) (without g (u_idle u)) (u_open u)) else None
                    end
  | GSwitch | GRetire _ => Some u
  | GAssign _ _ => None
  end.
Lemma inb_in g l : existsb (Nat.eqb g) l = true <-> In g l.
Proof. rewrite existsb_exists. split; [intros (x & H & E); apply Nat.eqb_eq in E; now subst|]. intro H. exists g. now rewrite Nat.eqb_refl. Qed.
Lemma inb_nin g l : existsb (Nat.eqb g) l = false <-> ~ In g l.
Proof. rewrite <- inb_in. destruct (existsb _ _); intuition congruence. Qed.
Lemma fair_b_ok u a u' : fair_b u a = Some u' -> fair u a u'.
Proof.
  destruct u as [n i o]. destruct a; cbn -[existsb]; intro H.
  - destruct (existsb _ n) eqn:E; [discriminate|]. injection H as <-. constructor. apply inb_nin. exact E.
  - destruct (existsb (Nat.eqb h) n) eqn:E; [discriminate|]. cbn [orb] in H. destruct (negb _ && negb _) eqn:E2; [discriminate|]. injection H as <-. constructor; [apply inb_nin; exact E|].
    destruct (existsb (Nat.eqb g) i) eqn:E3; [left; apply inb_in; exact E3|]. right. cbn [negb andb] in E2. apply negb_false_iff in E2. apply existsb_exists in E2. destruct E2 as (t & _ & E2). exists t. apply inb_in. exact E2.
  - discriminate.
  - destruct (existsb (Nat.eqb g) i) eqn:E; [injection H as <-; constructor; apply inb_in; exact E|]. destruct (existsb (fun t => _) _) eqn:E2; [|discriminate]. injection H as <-.
    apply existsb_exists in E2. destruct E2 as (u & _ & E2). apply (fair_use n i o t u). apply inb_in. exact E2.
  - destruct (o t) as [|h r] eqn:EO.
    + destruct (existsb _ i) eqn:E; [|discriminate]. injection H as <-. constructor. apply inb_in. exact E.
    + destruct (Nat.eqb_spec h g); [subst; injection H as <-; constructor; exact EO|]. destruct (existsb _ i) eqn:E; [|discriminate]. injection H as <-. constructor. apply inb_in. exact E.
  - injection H as <-. constructor.
  - injection H as <-. constructor.
Qed.
Fixpoint both (u : uses) (s : gst) (l : list gop) : option (uses * gst) :=
  match l with
  | [] => Some (u, s)
  | a :: r => match fair_b u a, gstep s a with Some u', GOk s' => both u' s' r | _, _ => None end
  end.
Lemma both_ok c l : forall u s u' s', together c u s -> both u s l = Some (u', s') -> together c u' s'.
Proof.
  induction l as [|a l IH]; cbn; intros u s u' s' HT H; [injection H as <- <-; exact HT|]. destruct (fair_b u a) eqn:E; [|discriminate]. destruct (gstep s a) eqn:E2; try discriminate.
  eapply IH; [|exact H]. econstructor; eauto using fair_b_ok.
Qed.
Definition tour : list gop :=
  [GNew 1 1; GGet 1 1; GSwitch; GNew 1 2; GNew 2 3; GCopy 1 4; GGet 2 4; GNew 2 5; GDestroy 1 2; GDestroy 1 1].
Example tour_ok : exists u s, both unused (ginit 8) tour = Some (u, s) /\ together 8 u s /\ u_open u 2%nat = [5; 4; 3]%nat /\
  section_cp s 3 = Some 9 /\ section_cp s 4 = Some 8 /\ section_cp s 5 = Some 8 /\ gstep s (GRetire 8) = GStop /\ live_on s 8 = 2%nat.
Proof.
  eexists _, _. split; [vm_compute; reflexivity|]. split; [eapply (both_ok 8 tour unused (ginit 8)); [constructor|vm_compute; reflexivity]|]. vm_compute. ands; reflexivity.
Qed.
Example tour_end : exists u s s', both unused (ginit 8) (tour ++ [GDestroy 2 5; GDestroy 2 4]) = Some (u, s) /\ gstep s (GRetire 8) = GOk s' /\ alive s' = [9].
Proof. eexists _, _, _. split; [vm_compute; reflexivity|]. split; vm_compute; reflexivity. Qed.
Example nested_alone : exists u s, alone 8 1 u s /\ u_open u 1%nat = [2; 1]%nat /\ cur s = 9 /\ section_cp s 2 = Some 8.
Proof.
  eexists _, _. split.
  - eapply alone_step with (a := GNew 1 2); [eapply alone_step with (a := GSwitch); [eapply alone_step with (a := GNew 1 1); [constructor| | |]| | |]| | |];
    try (apply fair_b_ok; vm_compute; reflexivity); try (vm_compute; reflexivity); intros; discriminate.
  - vm_compute. auto.
Qed.

(** ** Outside of fair use *)
(** Assigning over a live object keeps its reference for ever: nothing is alive any more, and
    checkpoint 8 cannot be retired. *)
Theorem c27_assignment_leaks_refuted :
  exists s, grun (ginit 8) [GNew 1 1; GSwitch; GNew 2 2; GAssign 1 2; GDestroy 1 1; GDestroy 2 2; GSwitch] = GOk s /\ guards s = [] /\ held s 8 = 1%nat /\ gstep s (GRetire 8) = GStop.
Proof. eexists. split; [vm_compute; reflexivity|]. vm_compute. auto. Qed.
(** An object used on one thread and destroyed on another leaves its checkpoint on the stack
    of the first one, which then uses it after it is deleted. *)
Theorem c27_other_thread_refuted :
  grun (ginit 8) [GNew 1 1; GCopy 1 2; GDestroy 1 1; GGet 2 2; GDestroy 1 2; GSwitch; GRetire 8; GNew 2 3] = GCrash.
Proof. vm_compute. reflexivity. Qed.
(** On one thread, out of order: the section that is left runs under a checkpoint of its own
    but new ones under the dead one. *)
Theorem c27_out_of_order_refuted :
  grun (ginit 8) [GNew 1 1; GSwitch; GNew 2 2; GCopy 2 3; GGet 1 3; GDestroy 1 1; GRetire 8; GNew 1 4] = GCrash.
Proof. vm_compute. reflexivity. Qed.

Print Assumptions c27_no_crash.
Print Assumptions c27_nested_same.
Print Assumptions c27_one_checkpoint.
Print Assumptions c27_stays.
Print Assumptions c27_references.
Print Assumptions c27_retired_when_free.
Print Assumptions c27_assignment_leaks_refuted.
Print Assumptions c27_other_thread_refuted.
Print Assumptions c27_out_of_order_refuted.
