(** * Counts of calls under way: what the threads still owe. *)
From Coq Require Import ZArith List Bool Lia.
From Verif Require Import StopModel StopSpec.
Import ListNotations.
Open Scope Z_scope.

Definition w (c : nat) (a : act) : Z :=
  match a with Inc d => if Nat.eqb d c then -1 else 0 | Dec d => if Nat.eqb d c then 1 else 0 | _ => 0 end.
Fixpoint net (c : nat) (l : list act) : Z := match l with [] => 0 | a :: r => w c a + net c r end.
Fixpoint owe (c : nat) (t : list (list act)) : Z := match t with [] => 0 | l :: r => net c l + owe c r end.
Lemma net_app c a b : net c (a ++ b) = net c a + net c b.
Proof. induction a; cbn [net app]; lia. Qed.
Lemma owe_app c a b : owe c (a ++ b) = owe c a + owe c b.
Proof. induction a; cbn [owe app]; lia. Qed.
Lemma net_split c n l : net c l = net c (firstn n l) + net c (skipn n l).
Proof. rewrite <- net_app, firstn_skipn. reflexivity. Qed.

(** Skips and forks keep what is owed. *)
Inductive ok : list act -> Prop :=
| ok_nil : ok []
| ok_chk d n r : (n <= length r)%nat -> (forall c, net c (firstn n r) = 0) -> ok r -> ok (skipn n r) -> ok (Chk d n :: r)
| ok_fork n r : (n <= length r)%nat -> ok (firstn n r) -> ok (skipn n r) -> ok (Fork n :: r)
| ok_inc d r : ok r -> (forall c, 0 <= net c (Inc d :: r)) -> ok (Inc d :: r)
| ok_dec d r : ok r -> ok (Dec d :: r)
| ok_use d r : ok r -> ok (Use d :: r)
| ok_note x r : ok r -> ok (Note x :: r).
Lemma ok_nonneg l : ok l -> forall c, 0 <= net c l.
Proof.
  induction 1 as [|d n r L N R IR S IS|n r L A IA B IB|d r R IR N|d r R IR|d r R IR|x r R IR]; intros c.
  - cbn; lia.
  - specialize (IR c). cbn. lia.
  - cbn [net w]. rewrite (net_split c n r). specialize (IA c). specialize (IB c). lia.
  - apply N.
  - specialize (IR c). cbn [net w]. destruct (Nat.eqb d c); lia.
  - specialize (IR c). cbn. lia.
  - specialize (IR c). cbn. lia.
Qed.
Lemma ok_app a b : ok a -> ok b -> ok (a ++ b).
Proof.
  intros A B. induction A as [|d n r L N R IR S IS|n r L A1 IA B1 IB|d r R IR N|d r R IR|d r R IR|x r R IR]; cbn [app]; auto.
  - constructor; [rewrite app_length; lia| |auto|].
    + intros c. rewrite firstn_app. replace (n - length r)%nat with 0%nat by lia. cbn. now rewrite app_nil_r.
    + rewrite skipn_app. replace (n - length r)%nat with 0%nat by lia. exact IS.
  - constructor; [rewrite app_length; lia| |].
    + rewrite firstn_app. replace (n - length r)%nat with 0%nat by lia. cbn. now rewrite app_nil_r.
    + rewrite skipn_app. replace (n - length r)%nat with 0%nat by lia. exact IB.
  - constructor; auto. intros c. specialize (N c). pose proof (ok_nonneg b B c). cbn [net] in *. rewrite net_app. lia.
  - now constructor.
  - now constructor.
  - now constructor.
Qed.
Definition even (l : list act) : Prop := ok l /\ forall c, net c l = 0.
Lemma even_app a b : even a -> even b -> even (a ++ b).
Proof. intros (A & A') (B & B'). split; [now apply ok_app|]. intros c. rewrite net_app, A', B'. reflexivity. Qed.
Lemma even_many n b : even b -> even (many n b).
Proof. intros B. induction n; [split; [constructor|reflexivity]|]. unfold many. cbn [repeat concat]. now apply even_app. Qed.
Lemma even_nil : even []. Proof. split; [constructor|reflexivity]. Qed.
Lemma even_use d : even [Use d]. Proof. split; [repeat constructor|reflexivity]. Qed.
Lemma even_note d : even [Note d]. Proof. split; [repeat constructor|reflexivity]. Qed.
Lemma even_cons a b : even [a] -> even b -> even (a :: b).
Proof. apply (even_app [a] b). Qed.
(** A check over something even that begins with a count. *)
Lemma even_chk d b : even b -> even (Chk d (length b) :: b).
Proof.
  intros (B & B'). split; [|intros c; cbn; apply B'].
  constructor; auto.
  - intros c. rewrite firstn_all. apply B'.
  - rewrite skipn_all. constructor.
Qed.
Lemma even_count d b e : even b -> ok e -> (forall c, net c e = net c [Dec d]) -> even (Inc d :: b ++ e).
Proof.
  intros (B & B') E N. assert (Z : forall c, net c (Inc d :: b ++ e) = 0).
  { intros c. cbn [net]. rewrite net_app, B', N. cbn [net w]. destruct (Nat.eqb d c); lia. }
  split; [|exact Z]. constructor; [now apply ok_app|]. intros c. rewrite Z. lia.
Qed.
Lemma even_guard d b : even b -> even (guard d b).
Proof.
  intros B. unfold guard. replace (S (S (length b))) with (length (Inc d :: b ++ [Dec d])) by (cbn; rewrite app_length; cbn; lia).
  apply even_chk, even_count; auto. repeat constructor.
Qed.
Lemma ok_forked b : ok b -> ok (fork b).
Proof. intros B. unfold fork. constructor; auto; [now rewrite firstn_all|rewrite skipn_all; constructor]. Qed.
Lemma net_fork c b : net c (fork b) = net c b.
Proof. reflexivity. Qed.
Lemma even_fork b : even b -> even (fork b).
Proof. intros (B & B'). split; [now apply ok_forked|]. intros c. rewrite net_fork. apply B'. Qed.
Lemma even_io : even d_io.
Proof. apply even_app; [apply even_use|apply even_fork, even_use]. Qed.

Lemma even_flush : even v_flush.
Proof.
  unfold v_flush. apply (even_chk LogDv ([Inc LogDv; Use LogDv; Dec LogDv] ++ [Use LogDv])), even_app; [|apply even_use].
  apply (even_count LogDv [Use LogDv] [Dec LogDv]); [apply even_use|repeat constructor|reflexivity].
Qed.
Lemma even_append id f : even f -> even (v_append id f).
Proof. intros F. apply even_guard, even_cons; [apply even_use|]. apply even_cons; [apply even_note|auto]. Qed.
Lemma even_write id f : even f -> even (s_write id f).
Proof. intros F. apply even_guard, even_guard, even_cons; [apply even_use|]. now apply even_append. Qed.
Lemma tidy_even l : tidy l -> even l.
Proof.
  induction 1.
  - apply even_guard, even_use.
  - apply even_guard, even_many, even_use.
  - unfold d_read1. change ([Chk DataSvc 5; Inc DataSvc; Dec DataSvc] ++ d_io) with (Chk DataSvc (length ([Inc DataSvc; Dec DataSvc] ++ d_io)) :: [Inc DataSvc; Dec DataSvc] ++ d_io).
    apply even_chk, even_app; [|apply even_io]. apply (even_count DataSvc [] [Dec DataSvc]); [apply even_nil|repeat constructor|reflexivity].
  - apply even_guard, even_many, even_io.
  - apply even_guard, even_app; auto. apply even_guard, even_use.
  - apply even_guard, even_many; auto.
  - apply even_guard, even_app; [apply even_use|apply even_fork, even_use].
  - now apply even_append.
  - apply even_guard, even_use.
  - apply (even_count LogDv [Use LogDv] [Dec LogDv]); [apply even_use|repeat constructor|reflexivity].
  - apply even_flush.
  - apply even_guard, even_fork, even_flush.
  - apply even_guard, even_cons; [apply even_use|auto].
  - now apply even_write.
  - apply even_guard, even_cons; [apply even_use|]. apply even_app; [now apply even_write|apply even_note].
  - apply even_guard, even_cons; [apply even_use|]. apply even_app; [now apply even_write|apply even_use].
  - apply even_guard, even_cons; [apply even_use|auto].
  - apply even_guard, even_use.
  - apply even_guard, even_use.
  - apply even_guard, even_cons; [apply even_use|auto].
  - unfold r_write. replace (length b + 4)%nat with (length (Inc Repl :: (Use Repl :: b) ++ fork [Dec Repl])) by (cbn [length app]; rewrite app_length; cbn [length fork]; lia).
    apply (even_chk Repl (Inc Repl :: (Use Repl :: b) ++ fork [Dec Repl])), even_count; [apply even_cons; [apply even_use|auto]|apply ok_forked; repeat constructor|reflexivity].
  - split; [|intros c; cbn; destruct c as [|[|[|[|[|[|[|[|c]]]]]]]]; reflexivity].
    constructor.
    + constructor; [cbn; lia|reflexivity|repeat constructor|repeat constructor].
    + intros c. cbn [net w]. destruct (Nat.eqb ReplSvc c); lia.
  - apply even_guard, even_use.
  - now apply even_app.
  - apply even_nil.
Qed.

(** ** The threads *)
Lemma put_split t i (l : list act) : nth_error t i = Some l -> exists a b, t = a ++ l :: b /\ forall x, put t i x = a ++ x ++ b.
Proof.
  intros H. exists (firstn i t), (skipn (S i) t). split; [|reflexivity].
  revert i H. induction t as [|y t IH]; intros [|i] H; try discriminate; cbn in *; [congruence|]. f_equal. now apply IH.
Qed.
(** [pnd] is what the threads owe, but for [k]. *)
Definition inv (k : nat -> Z) (s : st) : Prop := Forall ok (thr s) /\ forall c, pnd s c = owe c (thr s) + k c.
Lemma upd_eq {A} (f : nat -> A) c v : upd f c v c = v.
Proof. unfold upd. now rewrite Nat.eqb_refl. Qed.
Lemma upd_ne {A} (f : nat -> A) c v d : d <> c -> upd f c v d = f d.
Proof. intros H. unfold upd. apply Nat.eqb_neq in H. now rewrite H. Qed.
Lemma inv_exec k s i l : inv k s -> nth_error (thr s) i = Some l -> inv k (exec s i l).
Proof.
  intros (F & P) E. destruct (put_split _ _ _ E) as (a & b & T & PU).
  rewrite T in F. apply Forall_app in F. destruct F as (Fa & F). inversion F as [|? ? Fl Fb]; subst. 
  assert (G : forall x, Forall ok x -> Forall ok (a ++ x ++ b)) by (intros x X; apply Forall_app; split; auto; apply Forall_app; auto).
  assert (O : forall c, pnd s c = owe c a + (net c l + owe c b) + k c) by (intros c; rewrite P, T, owe_app; reflexivity).
  assert (N : forall x p, (forall c, p c = pnd s c - net c l + owe c x) -> forall c, p c = owe c (a ++ x ++ b) + k c).
  { intros x p H c. rewrite H, O, !owe_app. lia. }
  destruct Fl as [|d n r L Z R S|n r L A B|d r R Z|d r R|d r R|x r R]; split; cbn [exec thr pnd]; rewrite PU.
  - now apply (G []).
  - apply (N []). intros c. cbn. lia.
  - apply G. constructor; auto. now destruct (stp s d).
  - apply N. intros c. cbn [owe net w]. destruct (stp s d); [|lia]. rewrite (net_split c n r), Z. lia.
  - apply G. repeat constructor; auto.
  - apply N. intros c. cbn [owe net w]. rewrite (net_split c n r). lia.
  - apply G. auto.
  - apply N. intros c. cbn [owe net w]. destruct (Nat.eqb_spec d c) as [->|Ne]; [rewrite upd_eq; lia|rewrite upd_ne by auto; lia].
  - apply G. auto.
  - apply N. intros c. cbn [owe net w]. destruct (Nat.eqb_spec d c) as [->|Ne]; [rewrite upd_eq; lia|rewrite upd_ne by auto; lia].
  - apply G. auto.
  - apply N. intros c. cbn [owe net w]. lia.
  - apply G. auto.
  - apply N. intros c. cbn [owe net w]. lia.
Qed.
Definition new_even (e : ev) : Prop := match e with ENew l => even l | _ => True end.
Lemma inv_step k s e s' : inv k s -> new_even e -> step s e = Some s' -> inv k s'.
Proof.
  intros I V E. destruct e as [l|i|c|c]; cbn [step] in E.
  - injection E as <-. destruct I as (F & P), V as (V & V'). split; cbn [thr pnd].
    + apply Forall_app. auto.
    + intros c. rewrite P, owe_app. cbn. rewrite V'. lia.
  - destruct (nth_error (thr s) i) as [l|] eqn:N; [|discriminate]. injection E as <-. now apply inv_exec.
  - injection E as <-. exact I.
  - destruct (stp s c && (pnd s c =? 0)); [|discriminate]. injection E as <-. exact I.
Qed.
Lemma inv_run k l : forall s s', inv k s -> Forall new_even l -> run s l = Some s' -> inv k s'.
Proof.
  induction l as [|e l IH]; cbn [run]; intros s s' I F E; [congruence|]. inversion F; subst.
  destruct (step s e) as [s1|] eqn:S; [|discriminate]. eapply IH; [|auto|exact E]. eapply inv_step; eauto.
Qed.
Lemma owe_nonneg c t : Forall ok t -> 0 <= owe c t.
Proof. induction 1 as [|l t O F IH]; cbn [owe]; [lia|]. pose proof (ok_nonneg l O c). lia. Qed.
Lemma tidy_new l : calls tidy l -> Forall new_even l.
Proof. intros H. apply Forall_forall. intros e I. destruct e; cbn; auto. apply tidy_even, H, I. Qed.

(** All threads can run to their end. *)
Fixpoint size (t : list (list act)) : nat := match t with [] => 0%nat | l :: r => (S (2 * length l) + size r)%nat end.
Lemma size_app a b : size (a ++ b) = (size a + size b)%nat.
Proof. induction a; cbn [size app]; lia. Qed.
Lemma finish n : forall s, (size (thr s) <= n)%nat -> exists l s', runs_only l /\ run s l = Some s' /\ thr s' = [] /\ stp s' = stp s /\ ret s' = ret s.
Proof.
  induction n as [|n IH]; intros s H.
  - destruct (thr s) as [|l t] eqn:T; [|cbn in H; lia]. exists [], s. repeat split; auto. intros e [].
  - destruct (thr s) as [|l t] eqn:T; [exists [], s; repeat split; auto; intros e []|].
    assert (Q : exists x, thr (exec s 0 l) = x ++ t /\ (size x < size [l])%nat /\ stp (exec s 0 l) = stp s /\ ret (exec s 0 l) = ret s).
    { destruct l as [|a r]; [exists []; cbn; rewrite T; cbn; repeat split; lia|].
      destruct a; cbn [exec thr stp ret]; unfold put; rewrite T; cbn [firstn skipn app];
        try (eexists [_]; cbn [app]; split; [reflexivity|]; cbn [size length]; repeat split; lia).
      - eexists [_]. cbn [app]. split; [reflexivity|]. cbn [size length]. destruct (stp s c); [rewrite skipn_length|]; repeat split; lia.
      - eexists [_; _]. cbn [app]. split; [reflexivity|]. cbn [size length]. rewrite firstn_length, skipn_length. repeat split. lia. }
    destruct Q as (x & Q1 & Q2 & Q3 & Q4). destruct (IH (exec s 0 l)) as (es & s' & R1 & R2 & R3 & R4 & R5).
    { rewrite Q1, size_app. cbn [size] in *. lia. }
    exists (ERun 0 :: es), s'. repeat split; try congruence.
    + intros e [<-|I]; [eauto|auto].
    + cbn [run step]. rewrite T. cbn [nth_error]. exact R2.
Qed.
