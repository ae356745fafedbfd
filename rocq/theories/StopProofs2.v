(** * No use of a component after its stop() has returned. *)
From Coq Require Import ZArith List Bool Lia.
From Verif Require Import StopModel StopSpec StopProofs.
Import ListNotations.
Open Scope Z_scope.

Lemma within_even b : within b -> even b.
Proof. induction 1; [apply even_nil|now apply even_app|apply even_use|apply even_note|now apply even_guard]. Qed.
Lemma even_first c b : even b -> even (Inc c :: Chk c (length b) :: b ++ [Dec c]).
Proof.
  intros (B & B'). apply (even_count c [] (Chk c (length b) :: b ++ [Dec c])).
  - apply even_nil.
  - constructor.
    + rewrite app_length. lia.
    + intros d. rewrite firstn_app, firstn_all, Nat.sub_diag, firstn_O, app_nil_r. apply B'.
    + apply ok_app; auto. repeat constructor.
    + rewrite skipn_app, skipn_all, Nat.sub_diag. cbn. repeat constructor.
  - intros d. cbn [net w]. rewrite net_app, B'. reflexivity.
Qed.
Lemma covered_even x c b : covered x c b -> even b.
Proof.
  induction 1; [apply even_nil|now apply even_app|apply even_guard; now apply within_even|apply even_first; now apply within_even|now apply even_guard|apply even_use|apply even_note].
Qed.

(** A use that is reached although the flag of [c] is set. *)
Inductive ru (c : nat) : list act -> Prop :=
| ru_use r : ru c (Use c :: r)
| ru_step a r : (forall n, a <> Chk c n) -> (forall n, a <> Fork n) -> ru c r -> ru c (a :: r)
| ru_skip d n r : ru c (skipn n r) -> ru c (Chk d n :: r)
| ru_fork1 n r : ru c (firstn n r) -> ru c (Fork n :: r)
| ru_fork2 n r : ru c (skipn n r) -> ru c (Fork n :: r).
Definition hold (c : nat) (l : list act) : Prop := ru c l -> 1 <= net c l.
(** The flag of [c] is set: the count is held as long as a use is ahead. *)
Inductive gd (c : nat) : list act -> Prop :=
| g_nil : gd c []
| g_any a r : (forall d n, a <> Chk d n) -> (forall n, a <> Fork n) -> hold c (a :: r) -> gd c r -> gd c (a :: r)
| g_same n r : hold c (Chk c n :: r) -> gd c (skipn n r) -> gd c (Chk c n :: r)
| g_chk d n r : d <> c -> hold c (Chk d n :: r) -> gd c r -> gd c (skipn n r) -> gd c (Chk d n :: r)
| g_fork n r : hold c (Fork n :: r) -> gd c (firstn n r) -> gd c (skipn n r) -> gd c (Fork n :: r).
(** The flag is not set yet. *)
Definition here (x : bool) (c : nat) (l : list act) : Prop := (x = true /\ exists r, l = Inc c :: r) \/ gd c l.
Inductive disc (x : bool) (c : nat) : list act -> Prop :=
| d_nil : disc x c []
| d_any a r : (forall d n, a <> Chk d n) -> (forall n, a <> Fork n) -> here x c (a :: r) -> disc x c r -> disc x c (a :: r)
| d_chk d n r : here x c (Chk d n :: r) -> disc x c r -> disc x c (skipn n r) -> disc x c (Chk d n :: r)
| d_fork n r : here x c (Fork n :: r) -> disc x c (firstn n r) -> disc x c (skipn n r) -> disc x c (Fork n :: r).
Lemma gd_hold c l : gd c l -> hold c l.
Proof. intros []; auto. intros H. inversion H. Qed.
Lemma disc_here x c l : disc x c l -> here x c l.
Proof. intros []; auto. right. constructor. Qed.

Lemma skip_all (b r : list act) : skipn (length b) (b ++ r) = r.
Proof. rewrite skipn_app, skipn_all, Nat.sub_diag. reflexivity. Qed.
Lemma skip_guard d b r : skipn (S (S (length b))) (Inc d :: (b ++ [Dec d]) ++ r) = r.
Proof. rewrite <- app_assoc. change (skipn (S (length b)) (b ++ [Dec d] ++ r) = r). rewrite app_assoc. replace (S (length b)) with (length (b ++ [Dec d])) by (rewrite app_length; cbn; lia). apply skip_all. Qed.

(** Both conditions together, over a continuation [r]. *)
Definition both (x : bool) (c : nat) (r : list act) : Prop := gd c r /\ disc x c r.
Lemma both_any x c a r : (forall d n, a <> Chk d n) -> (forall n, a <> Fork n) -> hold c (a :: r) -> both x c r -> both x c (a :: r).
Proof. intros A B H (G & D). assert (gd c (a :: r)) by now constructor. split; auto. constructor; auto. now right. Qed.
Lemma held c l : 1 <= net c l -> hold c l.
Proof. intros H _. exact H. Qed.
Lemma both_guard_in x c d b r : net c (b ++ Dec d :: r) >= 1 -> even b -> 1 <= net c r -> both x c r -> both x c (b ++ Dec d :: r) -> both x c (guard d b ++ r).
Proof.
  intros Nb (_ & Eb) N (G & D) (G' & D'). unfold guard. cbn [app]. rewrite <- (app_assoc b [Dec d] r). cbn [app].
  assert (Sk : skipn (S (S (length b))) (Inc d :: b ++ Dec d :: r) = r) by (generalize (skip_guard d b r); rewrite <- app_assoc; auto).
  assert (NI : 1 <= net c (Inc d :: b ++ Dec d :: r)).
  { cbn [net]. rewrite net_app, Eb. cbn [net w]. destruct (Nat.eqb d c); lia. }
  assert (GI : gd c (Inc d :: b ++ Dec d :: r)) by (constructor; try discriminate; auto; now apply held).
  assert (GC : gd c (Chk d (S (S (length b))) :: Inc d :: b ++ Dec d :: r)).
  { destruct (Nat.eq_dec d c) as [->|Ne].
    - apply g_same; [now apply held|]. now rewrite Sk.
    - apply g_chk; auto; [now apply held|]. now rewrite Sk. }
  split; auto. apply d_chk; [now right| |now rewrite Sk]. constructor; try discriminate; auto. now right.
Qed.
Lemma within_both x c b : within b -> forall r, 1 <= net c r -> both x c r -> both x c (b ++ r).
Proof.
  induction 1 as [|a b A IA B IB|d|n|d b B IB]; intros r N R; auto.
  - rewrite <- app_assoc. apply IA; auto. destruct (within_even _ B) as (_ & Z). rewrite net_app, Z. lia.
  - apply both_any; auto; try discriminate. now apply held.
  - apply both_any; auto; try discriminate. now apply held.
  - assert (N1 : 1 <= net c (Dec d :: r)) by (cbn [net w]; destruct (Nat.eqb d c); lia).
    assert (B1 : both x c (Dec d :: r)) by (apply both_any; auto; try discriminate; now apply held).
    destruct (within_even _ B) as (E1 & E2).
    apply both_guard_in; auto; [|split; auto]. rewrite net_app, E2. lia.
Qed.
Lemma ru_cons c a r : (forall d n, a <> Chk d n) -> (forall n, a <> Fork n) -> a <> Use c -> ru c (a :: r) -> ru c r.
Proof. intros A B C H. inversion H; subst; auto; try congruence; exfalso; eauto; eapply A; eauto. Qed.
Lemma no_hold c l : ~ ru c l -> hold c l.
Proof. intros H K. now destruct H. Qed.
Definition clean (x : bool) (c : nat) (r : list act) : Prop := both x c r /\ ~ ru c r /\ net c r = 0.
Lemma covered_clean x c b : covered x c b -> forall r, both x c r -> ~ ru c r -> 0 <= net c r -> both x c (b ++ r) /\ ~ ru c (b ++ r).
Proof.
  induction 1 as [|a b A IA B IB|b X W|b W|d b Ne B IB|d Ne|n]; intros r R U N; auto.
  - rewrite <- app_assoc. destruct (IB r R U N) as (R1 & U1). apply IA; auto. destruct (covered_even _ _ _ B) as (_ & Z). rewrite net_app, Z. lia.
  - (* guard c *)
    destruct (within_even _ W) as (E1 & E2).
    assert (B1 : both x c (Dec c :: r)). { apply both_any; auto; try discriminate. apply no_hold. intros K. apply ru_cons in K; try discriminate. now apply U. }
    assert (N1 : 1 <= net c (Dec c :: r)) by (cbn [net w]; rewrite Nat.eqb_refl; lia).
    destruct (within_both x c b W _ N1 B1) as (G2 & D2).
    assert (Sk : skipn (S (S (length b))) (Inc c :: b ++ Dec c :: r) = r) by (generalize (skip_guard c b r); rewrite <- app_assoc; auto).
    unfold guard. cbn [app]. rewrite <- (app_assoc b [Dec c] r). cbn [app].
    assert (U1 : ~ ru c (Chk c (S (S (length b))) :: Inc c :: b ++ Dec c :: r)).
    { intros K. inversion K as [|a r0 Q|d n r0 Q| |]; subst; [now apply (Q (S (S (length b))))|]. rewrite Sk in Q. now apply U. }
    assert (G1 : gd c (Chk c (S (S (length b))) :: Inc c :: b ++ Dec c :: r)).
    { apply g_same; [now apply no_hold|]. rewrite Sk. apply R. }
    repeat split; auto. apply d_chk; [now right| |rewrite Sk; apply R]. apply d_any; try discriminate; auto. left. eauto.
  - (* counted first *)
    destruct (within_even _ W) as (E1 & E2).
    assert (UD : ~ ru c (Dec c :: r)) by (intros K; apply ru_cons in K; try discriminate; now apply U).
    assert (B1 : both x c (Dec c :: r)) by (apply both_any; auto; try discriminate; now apply no_hold).
    assert (N1 : 1 <= net c (Dec c :: r)) by (cbn [net w]; rewrite Nat.eqb_refl; lia).
    destruct (within_both x c b W _ N1 B1) as (G2 & D2).
    cbn [app]. rewrite <- (app_assoc b [Dec c] r). cbn [app].
    assert (UC : ~ ru c (Chk c (length b) :: b ++ Dec c :: r)).
    { intros K. inversion K as [|a r0 Q|d n r0 Q| |]; subst; [now apply (Q (length b))|]. rewrite skip_all in Q. now apply UD. }
    assert (GC : gd c (Chk c (length b) :: b ++ Dec c :: r)) by (apply g_same; [now apply no_hold|]; rewrite skip_all; apply B1).
    assert (DC : disc x c (Chk c (length b) :: b ++ Dec c :: r)) by (apply d_chk; [now right|auto|rewrite skip_all; apply B1]).
    assert (UI : ~ ru c (Inc c :: Chk c (length b) :: b ++ Dec c :: r)) by (intros K; apply ru_cons in K; try discriminate; now apply UC).
    split; auto. apply both_any; try discriminate; [now apply no_hold|now split].
  - (* guard of another *)
    destruct (covered_even _ _ _ B) as (_ & E2).
    assert (UD : ~ ru c (Dec d :: r)) by (intros K; apply ru_cons in K; try discriminate; now apply U).
    assert (B1 : both x c (Dec d :: r)) by (apply both_any; auto; try discriminate; now apply no_hold).
    assert (N1 : 0 <= net c (Dec d :: r)) by (cbn [net w]; destruct (Nat.eqb d c); lia).
    destruct (IB _ B1 UD N1) as (R2 & U2).
    assert (Sk : skipn (S (S (length b))) (Inc d :: b ++ Dec d :: r) = r) by (generalize (skip_guard d b r); rewrite <- app_assoc; auto).
    unfold guard. cbn [app]. rewrite <- (app_assoc b [Dec d] r). cbn [app].
    assert (UI : ~ ru c (Inc d :: b ++ Dec d :: r)) by (intros K; apply ru_cons in K; try discriminate; now apply U2).
    assert (RI : both x c (Inc d :: b ++ Dec d :: r)) by (apply both_any; try discriminate; auto; now apply no_hold).
    assert (U1 : ~ ru c (Chk d (S (S (length b))) :: Inc d :: b ++ Dec d :: r)).
    { intros K. inversion K as [|a r0 Q1 Q2 Q3|d0 n r0 Q| |]; subst; [now apply UI|]. rewrite Sk in Q. now apply U. }
    assert (G1 : gd c (Chk d (S (S (length b))) :: Inc d :: b ++ Dec d :: r)).
    { apply g_chk; auto; [now apply no_hold|apply RI|rewrite Sk; apply R]. }
    repeat split; auto. apply d_chk; [now right|apply RI|rewrite Sk; apply R].
  - assert (~ ru c ([Use d] ++ r)) by (intros K; apply ru_cons in K; try discriminate; [now apply U|congruence]).
    split; auto. apply both_any; try discriminate; auto. now apply no_hold.
  - assert (~ ru c ([Note n] ++ r)) by (intros K; apply ru_cons in K; try discriminate; now apply U).
    split; auto. apply both_any; try discriminate; auto. now apply no_hold.
Qed.
Lemma covered_ok x c b : covered x c b -> gd c b /\ disc x c b /\ ~ ru c b.
Proof.
  intros H. destruct (covered_clean x c b H []) as ((G & D) & U).
  - split; constructor.
  - intros K. inversion K.
  - cbn. lia.
  - rewrite app_nil_r in *. auto.
Qed.

(** ** Along a run *)
Definition safe (x : bool) (c : nat) (s : st) : Prop :=
  (if ret s c then stp s c = true /\ Forall (fun l => ~ ru c l) (thr s)
   else if stp s c then Forall (gd c) (thr s) else Forall (disc x c) (thr s)) /\ ~ In c (bad s).
Lemma forall_put (P : list act -> Prop) t i l x : nth_error t i = Some l -> Forall P t -> (P l -> Forall P x) -> Forall P (put t i x).
Proof.
  intros E F H. destruct (put_split _ _ _ E) as (a & b & T & PU). rewrite PU. rewrite T in F.
  apply Forall_app in F. destruct F as (Fa & F). inversion F; subst. apply Forall_app; split; auto. apply Forall_app; auto.
Qed.
Lemma safe_exec x c s i l : safe x c s -> nth_error (thr s) i = Some l -> safe x c (exec s i l).
Proof.
  intros (F & B) E.
  assert (HB : ~ In c (bad (exec s i l))).
  { destruct l as [|[d n|d|d|d|n|y] r]; cbn [exec bad]; auto. destruct (ret s d) eqn:R; auto. intros [->|I]; auto.
    rewrite R in F. destruct F as (_ & F). rewrite Forall_forall in F. apply nth_error_In in E. apply (F _ E). constructor. }
  split; [|exact HB]. clear HB B.
  assert (HR : ret (exec s i l) = ret s /\ stp (exec s i l) = stp s) by (destruct l as [|[d n|d|d|d|n|y] r]; cbn; auto).
  destruct HR as (-> & ->). destruct (ret s c) eqn:R.
  - destruct F as (S & F). split; auto.
    destruct l as [|[d n|d|d|d|n|y] r]; cbn [exec thr]; (eapply forall_put; [exact E|exact F|]; intros U); repeat constructor;
      try (intros K; apply U; constructor; auto; discriminate).
    destruct (stp s d) eqn:Sd; intros K; apply U; [now apply ru_skip|]. apply ru_step; auto; try discriminate. intros m Q. injection Q as -> _. congruence.
  - destruct (stp s c) eqn:S.
    + destruct l as [|[d n|d|d|d|n|y] r]; cbn [exec thr]; (eapply forall_put; [exact E|exact F|]; intros U); inversion U; subst; repeat constructor; auto;
      try congruence.
      * now rewrite S.
      * now destruct (stp s d).
    + destruct l as [|[d n|d|d|d|n|y] r]; cbn [exec thr]; (eapply forall_put; [exact E|exact F|]; intros U); inversion U; subst; repeat constructor; auto;
      try congruence; try (now destruct (stp s d)).
Qed.
Definition covers (x : bool) (c : nat) (e : ev) : Prop := match e with ENew l => covered x c l | _ => True end.
Lemma zero_owe c t : Forall ok t -> owe c t = 0 -> Forall (fun l => net c l = 0) t.
Proof.
  induction 1 as [|l t O F IH]; cbn [owe]; intros E; constructor; pose proof (ok_nonneg l O c); pose proof (owe_nonneg c t F); [lia|apply IH; lia].
Qed.
Lemma safe_step x c s e s' : safe x c s -> inv (fun _ => 0) s -> covers x c e ->
  (x = true -> match e with EStop d => forall t r, In t (thr s) -> t <> Inc d :: r | _ => True end) ->
  step s e = Some s' -> safe x c s'.
Proof.
  intros I V C K E. destruct e as [l|i|d|d]; cbn [step] in E.
  - injection E as <-. destruct I as (F & B). split; [|exact B]. cbn [ret stp thr].
    destruct (covered_ok _ _ _ C) as (G & D & U).
    destruct (ret s c); [destruct F as (S & F); split; auto; apply Forall_app; auto|].
    destruct (stp s c); apply Forall_app; auto.
  - destruct (nth_error (thr s) i) as [l|] eqn:N; [|discriminate]. injection E as <-. now apply safe_exec.
  - injection E as <-. destruct I as (F & B). split; [|exact B]. cbn [ret stp thr].
    destruct (Nat.eq_dec c d) as [->|Ne]; [|rewrite upd_ne by auto; exact F]. rewrite upd_eq.
    destruct (ret s d); [destruct F; auto|]. destruct (stp s d); auto.
    rewrite Forall_forall in *. intros l Il. destruct (disc_here _ _ _ (F l Il)) as [(X & r & ->)|G]; auto.
    exfalso. exact (K X _ _ Il eq_refl).
  - destruct (stp s d && (pnd s d =? 0)) eqn:T; [|discriminate]. injection E as <-. apply andb_prop in T. destruct T as (T1 & T2). apply Z.eqb_eq in T2.
    destruct I as (F & B). split; [|exact B]. cbn [ret stp thr].
    destruct (Nat.eq_dec c d) as [->|Ne]; [|rewrite upd_ne by auto; exact F]. rewrite upd_eq. split; auto.
    destruct (ret s d); [apply F|]. rewrite T1 in F. destruct V as (O & P). rewrite P, Z.add_0_r in T2. pose proof (zero_owe d _ O T2) as Z.
    rewrite Forall_forall in *. intros l Il U. specialize (Z l Il). pose proof (gd_hold _ _ (F l Il) U). lia.
Qed.
Lemma safe_run x c l : forall s s', safe x c s -> inv (fun _ => 0) s -> Forall (covers x c) l -> (x = true -> calm_stops s l) -> run s l = Some s' -> safe x c s'.
Proof.
  induction l as [|e l IH]; cbn [run]; intros s s' I V F K E; [congruence|]. inversion F as [|? ? Fe Fl]; subst.
  destruct (step s e) as [s1|] eqn:S; [|discriminate]. apply (IH s1); auto.
  - eapply safe_step; eauto. intros X. specialize (K X). cbn [calm_stops] in K. apply K.
  - eapply inv_step; [exact V| |exact S]. destruct e; cbn in *; auto. now apply (covered_even x c).
  - intros X. specialize (K X). cbn [calm_stops] in K. rewrite S in K. apply K.
Qed.
