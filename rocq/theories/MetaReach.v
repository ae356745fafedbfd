(** The calls, crashes and restarts together. *)
From Coq Require Import ZArith NArith List Bool Lia Arith Permutation.
From Verif Require Import Base MetaModel MetaSpec MetaProofs MetaOps.
Import ListNotations.
Open Scope nat_scope.

Lemma format_ok e d : env_ok e -> up_ok e (format e d) [].
Proof.
  intro HE. unfold format. constructor; cbn [s_disk s_first s_metas s_ovfs s_last s_used s_subs]; try (intros ? []; fail); try reflexivity.
  - apply disk_exact; [apply put1_same|exact I|intros ? []|constructor|repeat constructor; intros []|intros ? []].
  - intros ? ? [].
  - intro b. rewrite N.eqb_eq. cbn. intuition congruence.
Qed.
Lemma after_perm o r r' : Permutation r r' -> Permutation (after o r) (after o r').
Proof. intro H. destruct o; cbn; [now apply Permutation_app_tail|now apply Permutation_map|now apply Permutation_filter]. Qed.
Lemma handle_abs e d l : map handle (map (absx e d) l) = map (fun x : item => bid x) l.
Proof. rewrite map_map. reflexivity. Qed.
Lemma call_ok e s l r o : env_ok e -> up_ok e s l -> Permutation r (map (absx e (s_disk s)) l) -> legal e s r o -> op_ok e s l (call e o s) (after o (map (absx e (s_disk s)) l)).
Proof.
  intros HE HU HP HL. assert (HH : forall b, In b (map handle r) -> In b (map (fun x : item => bid x) l)).
  { intros b HB. rewrite <- (handle_abs e (s_disk s)). eapply Permutation_in; [apply Permutation_map; exact HP|exact HB]. }
  destruct o as [t data b hdrs exts|b data hdrs exts|b]; cbn [call after legal] in *.
  - destruct HL. now apply add_ok.
  - destruct HL as (H1 & H2 & H3). apply update_ok; auto.
  - destruct HL as (H1 & H2). apply remove_ok; auto. apply Permutation_length in HP. rewrite map_length in HP. lia.
Qed.
Lemma after_some e s l o : env_ok e -> up_ok e s l -> legal e s (map (absx e (s_disk s)) l) o -> after o (map (absx e (s_disk s)) l) <> [].
Proof.
  intros HE HU. destruct o as [t data b hdrs exts|b data hdrs exts|b]; cbn [after legal]; intro H.
  - destruct l; discriminate.
  - destruct H as [H _]. destruct l; [destruct H|discriminate].
  - destruct H as [H1 H2]. rewrite handle_abs in H1. rewrite map_length in H2. pose proof (d_apart _ _ _ (u_disk _ _ _ HU)) as HN. inversion HN as [|? ? _ HN']; subst. apply bids_nodup in HN'.
    destruct l as [|x [|y l]]; cbn in H2; try lia. cbn [map filter]. change (handle (absx e (s_disk s) x)) with (bid x). change (handle (absx e (s_disk s) y)) with (bid y).
    destruct (N.eqb_spec (bid x) b) as [E1|E1], (N.eqb_spec (bid y) b) as [E2|E2]; cbn [negb]; try discriminate.
    cbn [map] in HN'. inversion HN' as [|? ? HX _]; subst. elim HX. left. exact E2.
Qed.

Definition inv (e : env) (w : world) (r : list rec) (alt : option (list rec)) : Prop :=
  match w with
  | Up s => exists l, up_ok e s l /\ Permutation r (map (absx e (s_disk s)) l)
  | Down d => exists l, disk_ok e d l /\ (Permutation r (map (absx e d) l) \/ exists r2, alt = Some r2 /\ r2 <> [] /\ Permutation r2 (map (absx e d) l))
  end.
Lemma legal_perm e s r r' o : Permutation r r' -> legal e s r o -> legal e s r' o.
Proof.
  intros HP H. destruct o; cbn [legal] in *; [exact H| |].
  - destruct H as (H1 & H2 & H3). split; [|auto]. eapply Permutation_in; [apply Permutation_map; exact HP|exact H1].
  - destruct H as (H1 & H2). split; [eapply Permutation_in; [apply Permutation_map; exact HP|exact H1]|]. now rewrite <- (Permutation_length HP).
Qed.
Lemma disk_none e d l : disk_ok e d l -> forall x, boot e d = Some x -> l <> [].
Proof. intros HD x HB ->. unfold boot in HB. rewrite (d_ssb _ _ _ HD) in HB. discriminate. Qed.
Lemma reach_inv e w r alt : env_ok e -> reach e w r alt -> inv e w r alt.
Proof.
  intros HE HR. pose proof (env_bs e HE) as HB. induction HR; cbn [inv] in *.
  - exists []. split; [now apply format_ok|constructor].
  - destruct IHHR as (l & U & P). destruct (call_ok e s l r o HE U P H) as (ws0 & s0 & l' & E & U' & A & _). rewrite H0 in E. injection E as <- <-. exists l'. split; [exact U'|]. rewrite A. now apply after_perm.
  - destruct IHHR as (l & U & P). destruct (call_ok e s l r o HE U P H) as (ws0 & s0 & l' & E & U' & A & _ & C). rewrite H0 in E. injection E as <- <-. destruct (C k) as [[C1 C2]|[C1 C2]].
    + exists l. split; [exact C1|]. left. rewrite C2. exact P.
    + exists l'. split; [exact C1|]. right. eexists. split; [reflexivity|]. split; [|rewrite C2; now apply after_perm].
      intro HC. pose proof (after_some e s l o HE U (legal_perm _ _ _ _ _ P H)) as HS. apply HS. apply Permutation_nil. rewrite <- HC. now apply after_perm.
  - destruct IHHR as (l & U & P). exists l. split; [apply (u_disk _ _ _ U)|now left].
  - destruct IHHR as (l & D & P). pose proof (disk_none _ _ _ D _ H) as HN. destruct (boot_ok e d l HB D HN) as (ws0 & s0 & E & U & A & _). rewrite H in E. injection E as <- <-. exists l. split; [exact U|].
    destruct (recover_ok e s' l U) as (q & Q1 & Q2). rewrite H0 in Q1. injection Q1 as <-. exact Q2.
  - destruct IHHR as (l & D & P). pose proof (disk_none _ _ _ D _ H) as HN. destruct (boot_ok e d l HB D HN) as (ws0 & s0 & E & U & A & F). rewrite H in E. injection E as <- <-.
    destruct (mend_ok e d l (firstn k ws) HB D) as [M1 M2]; [rewrite <- (firstn_skipn k ws) in F; apply Forall_app in F; tauto|]. exists l. split; [exact M1|]. rewrite M2. exact P.
Qed.
Lemma boot_recovers e d l : env_ok e -> disk_ok e d l -> l <> [] -> exists ws s r, boot e d = Some (ws, s) /\ collect (recover e s) = Some r /\ Permutation r (map (absx e d) l) /\ up_ok e s l.
Proof.
  intros HE HD HL. destruct (boot_ok e d l (env_bs e HE) HD HL) as (ws & s & E & U & A & _). destruct (recover_ok e s l U) as (r & R1 & R2). exists ws, s, r. ands; auto. rewrite <- A. exact R2.
Qed.
Lemma perm_some {A B} (r : list A) (f : B -> A) l : Permutation r (map f l) -> r <> [] -> l <> [].
Proof. intros HP HR ->. apply HR. apply Permutation_nil. now symmetry. Qed.
Lemma used_same e s s' l : up_ok e s l -> up_ok e s' l -> forall b, s_used s' b = s_used s b.
Proof. intros U U' b. apply Bool.eq_iff_eq_true. rewrite (u_used _ _ _ U), (u_used _ _ _ U'). tauto. Qed.
(** Nothing to mend: nothing is written. *)
Lemma scan_quiet e d : forall l n p b0 l' ws, (forall x, In x l -> d (bid x) = BMeta (fst x)) -> linked p l None -> b0 = firstof l None -> scan n e d p b0 = Some (l', ws) -> ws = [].
Proof.
  induction l as [|x l IH]; intros n p b0 l' ws HM HL -> HS; [destruct n; injection HS as _ <-; reflexivity|]. destruct n as [|n]; [discriminate|]. cbn [firstof scan] in HS. rewrite (HM x (or_introl eq_refl)) in HS.
  cbn [linked] in HL. destruct HL as (L1 & L2 & L3). rewrite N.eqb_refl in HS. destruct (load_ovfs _ _ _); [|discriminate]. destruct (_ =? _); [|discriminate]. destruct (scan n e d (bid x) (b_next (fst x))) as [[l2 ws2]|] eqn:E; [|discriminate].
  rewrite L1, N.eqb_refl in HS. injection HS as _ <-. cbn [app]. eapply IH; [|exact L3|exact L2|exact E]. intros; apply HM; now right.
Qed.
Lemma boot_quiet e d l ws s : disk_ok e d l -> (forall x, In x l -> d (bid x) = BMeta (fst x)) -> boot e d = Some (ws, s) -> ws = [].
Proof.
  intros HD HM HB. unfold boot in HB. rewrite (d_ssb _ _ _ HD) in HB. destruct (firstof l None) as [b|] eqn:EF; [|discriminate]. destruct (scan _ _ _ _ _) as [[l2 ws2]|] eqn:E; [|discriminate].
  destruct (nodup_b _); [|discriminate]. injection HB as <- _. eapply scan_quiet; [exact HM|apply (d_link _ _ _ HD)|symmetry; exact EF|exact E].
Qed.
Lemma Permutation_in_iff {A} {l l' : list A} : Permutation l l' -> forall x, In x l <-> In x l'.
Proof. intros H x. split; apply Permutation_in; [exact H|now symmetry]. Qed.
