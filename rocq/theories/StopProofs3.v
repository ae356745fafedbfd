(** * Sequence numbers returned; counts never given back. *)
From Coq Require Import ZArith List Bool Lia.
From Verif Require Import StopModel StopSpec StopProofs.
Import ListNotations.
Open Scope Z_scope.

(** ** Returned only after accepted *)
Inductive sp : (nat -> Prop) -> list act -> Prop :=
| sp_nil O : sp O []
| sp_acc (O : nat -> Prop) id r : sp (fun x => x = id \/ O x) r -> sp O (Note (Accepted id) :: r)
| sp_ret (O : nat -> Prop) id r : O id -> sp O r -> sp O (Note (Returned id) :: r)
| sp_fork (O : nat -> Prop) n r : sp O (firstn n r) -> sp O (skipn n r) -> sp O (Fork n :: r)
| sp_any (O : nat -> Prop) a r : (forall n, a <> Fork n) -> (forall x, a <> Note x) -> sp O r -> sp O (a :: r).
Lemma sp_mono O l : sp O l -> forall P : nat -> Prop, (forall x, O x -> P x) -> sp P l.
Proof.
  induction 1 as [O|O id r R IR|O id r H R IR|O n r A IA B IB|O a r A B R IR]; intros P M.
  - constructor.
  - apply sp_acc, IR. intros x [->|H]; auto.
  - apply sp_ret; auto.
  - apply sp_fork; auto.
  - apply sp_any; auto.
Qed.
Lemma quiet_firstn n f : quiet f -> quiet (firstn n f).
Proof. intros Q id H. apply (Q id). rewrite <- (firstn_skipn n f). apply in_or_app. auto. Qed.
Lemma quiet_skipn n f : quiet f -> quiet (skipn n f).
Proof. intros Q id H. apply (Q id). rewrite <- (firstn_skipn n f). apply in_or_app. auto. Qed.
Lemma quiet_sp f : ok f -> quiet f -> forall O r, sp O r -> sp O (f ++ r).
Proof.
  induction 1 as [|d n f L N R IR S IS|n f L A IA B IB|d f R IR N|d f R IR|d f R IR|x f R IR]; intros Q O r H; auto;
    try (apply sp_any; try discriminate; apply IR; auto; intros id I; apply (Q id); right; exact I).
  - assert (Q' : quiet f) by (intros id I; apply (Q id); right; exact I).
    cbn [app]. apply sp_fork.
    + rewrite firstn_app. replace (n - length f)%nat with 0%nat by lia. rewrite firstn_O. apply IA; [now apply quiet_firstn|constructor].
    + rewrite skipn_app. replace (n - length f)%nat with 0%nat by lia. rewrite skipn_O. apply IB; auto. now apply quiet_skipn.
  - assert (Q' : quiet f) by (intros id I; apply (Q id); right; exact I).
    destruct x as [id|id]; [|destruct (Q id); now left]. cbn [app]. apply sp_acc, IR; auto. eapply sp_mono; [exact H|]. auto.
Qed.
Lemma append_sp O id f : ok f -> quiet f -> sp O (s_append id f).
Proof.
  intros F Q. unfold s_append, s_write, v_append, guard. cbn [app].
  do 11 (apply sp_any; try discriminate). apply sp_acc. 
  repeat rewrite <- app_assoc. apply quiet_sp; auto. cbn [app].
  do 3 (apply sp_any; try discriminate). apply sp_ret; auto. apply sp_any; try discriminate. constructor.
Qed.
Definition told (s : st) (id : nat) : Prop := In (Accepted id) (out s).
Definition honest (s : st) : Prop :=
  (forall c, stp s c = false) /\ Forall (sp (told s)) (thr s) /\ forall id, In (Returned id) (out s) -> In (Accepted id) (out s).
Lemma forall_put' (P R : list act -> Prop) t i l x : nth_error t i = Some l -> Forall P t -> (forall y, P y -> R y) -> (P l -> Forall R x) -> Forall R (put t i x).
Proof.
  intros E F M H. destruct (put_split _ _ _ E) as (a & b & T & PU). rewrite PU. rewrite T in F.
  apply Forall_app in F. destruct F as (Fa & F). inversion F; subst. apply Forall_app; split; [eapply Forall_impl; [|exact Fa]; auto|]. apply Forall_app; split; auto. eapply Forall_impl; eauto.
Qed.
Lemma honest_exec s i l : honest s -> nth_error (thr s) i = Some l -> honest (exec s i l).
Proof.
  intros (S & F & H) E.
  assert (V : sp (told s) l) by (rewrite Forall_forall in F; apply F; eapply nth_error_In; eauto).
  destruct l as [|[d n|d|d|d|n|y] r]; cbn [exec]; (split; [exact S|]; split; [cbn [thr]; eapply forall_put'; [exact E|exact F| |]|cbn [out]]); try (exact H); try (intros y0 Hy; exact Hy);
    try (intros _; inversion V; subst; repeat constructor; auto; try congruence).
  - rewrite S. auto.
  - intros y0 Hy. eapply sp_mono; [exact Hy|]. intros z Hz. right. exact Hz.
  - eapply sp_mono; [eassumption|]. intros z [->|Hz]; [now left|right; exact Hz].
  - eapply sp_mono; [eassumption|]. intros z Hz. right. exact Hz.
  - inversion V; subst; try congruence; intros z [Hz|Hz]; try discriminate; try (right; now apply H). injection Hz as ->. right. assumption.
Qed.
Lemma honest_run l : forall s s', honest s -> calls speaks l -> no_stop l -> run s l = Some s' -> honest s'.
Proof.
  induction l as [|e l IH]; cbn [run]; intros s s' I C N E; [congruence|].
  destruct (step s e) as [s1|] eqn:S; [|discriminate]. apply (IH s1); auto; [|intros x Hx; apply C; now right|intros c Hc; apply (N c); now right].
  destruct e as [x|i|c|c]; cbn [step] in S.
  - injection S as <-. destruct I as (I1 & I2 & I3). split; [exact I1|split; [|exact I3]]. cbn [thr]. apply Forall_app; split; auto. constructor; auto.
    destruct (C x (or_introl eq_refl)) as [(T & Q)|(id & f & T & Q & ->)].
    + rewrite <- (app_nil_r x). apply quiet_sp; auto; [apply tidy_even; auto|constructor].
    + apply append_sp; auto. now apply tidy_even.
  - destruct (nth_error (thr s) i) as [x|] eqn:X; [|discriminate]. injection S as <-. now apply honest_exec.
  - destruct (N c). now left.
  - destruct I as (I1 & I2). rewrite I1 in S. discriminate.
Qed.

(** ** Counts never given back *)
Lemma run_app a b : forall s, run s (a ++ b) = match run s a with Some s' => run s' b | None => None end.
Proof. induction a as [|e a IH]; cbn [run app]; intros s; auto. destruct (step s e); auto. Qed.
Lemma rets s l : forall s', (forall c, ret s c = true -> stp s c = true) -> run s l = Some s' -> forall c, ret s' c = true -> stp s' c = true.
Proof.
  revert s. induction l as [|e l IH]; cbn [run]; intros s s' I E; [injection E as <-; auto|].
  destruct (step s e) as [s1|] eqn:S; [|discriminate]. apply (IH s1); auto.
  destruct e as [x|i|d|d]; cbn [step] in S.
  - injection S as <-. exact I.
  - destruct (nth_error (thr s) i) as [x|]; [|discriminate]. injection S as <-.
    destruct x as [|[] r]; exact I.
  - injection S as <-. intros c R. cbn in *. destruct (Nat.eq_dec c d) as [->|Ne]; [apply upd_eq|rewrite upd_ne by auto; auto].
  - destruct (stp s d && (pnd s d =? 0)) eqn:T; [|discriminate]. injection S as <-. apply andb_prop in T. intros c R. cbn in *.
    destruct (Nat.eq_dec c d) as [->|Ne]; [apply T|rewrite upd_ne in R by auto; auto].
Qed.
Lemma kept k c l : 1 <= k c -> forall s s', inv k s -> Forall new_even l -> run s l = Some s' -> 1 <= pnd s' c /\ (ret s c = false -> ret s' c = false).
Proof.
  intros K. assert (P : forall s, inv k s -> 1 <= pnd s c) by (intros s (F & P); rewrite P; pose proof (owe_nonneg c _ F); lia).
  induction l as [|e l IH]; cbn [run]; intros s s' I F E; [injection E as <-; auto|]. inversion F; subst.
  destruct (step s e) as [s1|] eqn:S; [|discriminate].
  destruct (IH s1 s') as (A & B); auto; [eapply inv_step; eauto|]. split; auto. intros R. apply B.
  destruct e as [x|i|d|d]; cbn [step] in S.
  - injection S as <-. exact R.
  - destruct (nth_error (thr s) i) as [x|]; [|discriminate]. injection S as <-. destruct x as [|[] r]; exact R.
  - injection S as <-. exact R.
  - destruct (stp s d && (pnd s d =? 0)) eqn:T; [|discriminate]. injection S as <-. apply andb_prop in T. destruct T as (T1 & T2). apply Z.eqb_eq in T2.
    cbn [ret]. rewrite upd_ne; auto. intros ->. pose proof (P s I). lia.
Qed.
Lemma leaky_form c p : leaky c p -> exists n b, p = Chk c n :: Inc c :: b /\ even b.
Proof.
  intros []; eexists _, _; (split; [reflexivity|]); try apply even_use. apply even_cons; [apply even_use|now apply tidy_even].
Qed.
Lemma leak_inv s c p s2 : inv (fun _ => 0) s -> leaky c p -> stp s c = false ->
  run s [ENew p; ERun (length (thr s)); ERun (length (thr s))] = Some s2 ->
  inv (fun d => if Nat.eqb d c then 1 else 0) s2 /\ ret s2 c = ret s c.
Proof.
  intros (F & P) L S E. destruct (leaky_form _ _ L) as (n & b & -> & (B & B')).
  assert (PT : forall (t : list (list act)) y x, put (t ++ [y]) (length t) [x] = t ++ [x]).
  { intros t y x. unfold put. rewrite firstn_app, firstn_all, Nat.sub_diag, firstn_O, app_nil_r. rewrite skipn_all2 by (rewrite app_length; cbn; lia). reflexivity. }
  assert (NT : forall (t : list (list act)) y, nth_error (t ++ [y]) (length t) = Some y) by (intros t y; rewrite nth_error_app2, Nat.sub_diag by lia; reflexivity).
  cbn [run step thr] in E. rewrite NT in E. cbn [exec stp pnd ret thr bad out] in E. rewrite S, PT, NT in E. cbn [exec stp pnd ret thr bad out] in E. rewrite PT in E.
  injection E as <-. split; [|reflexivity]. split; cbn [thr pnd].
  - apply Forall_app. auto.
  - intros d. rewrite owe_app. cbn [owe]. rewrite B'. destruct (Nat.eqb_spec d c) as [->|Ne]; [rewrite upd_eq|rewrite upd_ne by auto]; rewrite P; lia.
Qed.
