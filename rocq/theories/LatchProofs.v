From Coq Require Import List Arith Lia Bool.
From Verif Require Import LatchModel LatchSpec.
Import ListNotations.

Lemma mem_in k l : mem k l = true <-> In k l.
Proof.
  unfold mem. rewrite existsb_exists. split.
  - intros (x & I & E). apply Nat.eqb_eq in E. now subst.
  - intros I. exists k. split; [exact I|apply Nat.eqb_refl].
Qed.

Lemma mem_not k l : mem k l = false <-> ~ In k l.
Proof. rewrite <- mem_in. destruct (mem k l); intuition congruence. Qed.

Section P.
Context (pos : key -> nat).

Lemma placed_nth : forall ks lsn j k, placed pos lsn ks = true -> nth_error ks j = Some k -> pos k = lsn + j.
Proof.
  induction ks as [|x ks IH]; intros lsn [|j] k P N; cbn in *; try discriminate.
  - injection N as ->. apply andb_true_iff in P. destruct P as [P _]. apply Nat.eqb_eq in P. lia.
  - apply andb_true_iff in P. destruct P as [_ P]. rewrite (IH _ _ _ P N). lia.
Qed.

(** What the append handler has seen to. *)
Definition seen (c : nat) (lg r : list key) (start : nat) (ks : list key) : Prop :=
  forall j k, nth_error ks j = Some k -> start + j <= c \/ nth_error lg (start + j - 1) = Some k \/ In k r.

Lemma prepare_in q c : forall ks lsn oks r r' p, prepare q c lsn ks oks r = (r', p) -> incl r r'.
Proof.
  induction ks as [|k ks IH]; intros lsn oks r r' p H; cbn in H.
  - injection H as <- _. apply incl_refl.
  - destruct (lsn <=? c); [eauto|]. destruct (mem k r); [eauto|]. destruct q; [injection H as <- _; apply incl_refl|].
    destruct oks as [|[] oks]; try (injection H as <- _; apply incl_refl).
    intros x X. apply (IH _ _ _ _ _ H). now right.
Qed.

Lemma prepare_seen q c lg : forall ks lsn oks r r', prepare q c lsn ks oks r = (r', Accepted) -> seen c lg r' lsn ks.
Proof.
  induction ks as [|k ks IH]; intros lsn oks r r' H; cbn in H.
  - intros [|j] x N; discriminate.
  - assert (T : forall oks r0, prepare q c (S lsn) ks oks r0 = (r', Accepted) -> (lsn <= c \/ In k r') -> seen c lg r' lsn (k :: ks)).
    { intros o r0 H' D [|j] x N; cbn in N.
      - injection N as <-. destruct D; [left; lia|right; now right].
      - destruct (IH _ _ _ _ H' j x N) as [X|[X|X]]; [left; lia|right; left|right; now right].
        replace (lsn + S j - 1) with (S lsn + j - 1) by lia. exact X. }
    destruct (lsn <=? c) eqn:E1.
    + apply Nat.leb_le in E1. eapply T; [exact H|now left].
    + destruct (mem k r) eqn:E2.
      * apply mem_in in E2. eapply T; [exact H|]. right. eapply prepare_in; eauto.
      * destruct q; [discriminate|]. destruct oks as [|[] oks]; try discriminate.
        eapply T; [exact H|]. right. apply (prepare_in _ _ _ _ _ _ _ _ H). now left.
Qed.

Lemma prepare_space c : forall ks lsn oks r r' n, prepare true c lsn ks oks r <> (r', NoSpace n).
Proof.
  induction ks as [|k ks IH]; intros lsn oks r r' n H; cbn in H; [discriminate|].
  destruct (lsn <=? c); [eapply IH; eauto|]. destruct (mem k r); [eapply IH; eauto|discriminate].
Qed.

Lemma differ_spec : forall ks lg m old new, differ lg ks = (m, old, new) ->
  new = skipn m ks /\ (old = [] \/ old = skipn m lg) /\ m <= length lg /\ m <= length ks /\
  (new <> [] -> old = [] -> m = length lg) /\
  (new <> [] -> forall k k', nth_error lg m = Some k' -> nth_error ks m = Some k -> k <> k') /\
  (new <> [] -> old = skipn m lg) /\
  (forall i, i < m -> nth_error lg i = nth_error ks i).
Proof.
  induction ks as [|k ks IH]; intros lg m old new H.
  - destruct lg; cbn in H; injection H as <- <- <-; (split; [reflexivity|]); (split; [now left|]);
    (split; [cbn; lia|]); (split; [cbn; lia|]); (split; [congruence|]); (split; [congruence|]); (split; [congruence|intros; lia]).
  - destruct lg as [|k' lg]; cbn in H.
    + injection H as <- <- <-. split; [reflexivity|]. split; [now left|]. split; [cbn; lia|]. split; [cbn; lia|].
      split; [reflexivity|]. split; [discriminate|]. split; [reflexivity|intros; lia].
    + destruct (k' =? k) eqn:E.
      * apply Nat.eqb_eq in E. subst k'. destruct (differ lg ks) as [[m0 a] b] eqn:D. injection H as <- <- <-.
        destruct (IH _ _ _ _ D) as (A & B & C & C2 & F & G & G2 & I).
        split; [exact A|]. split; [exact B|]. split; [cbn; lia|]. split; [cbn; lia|].
        split; [intros X Y; cbn; now rewrite (F X Y)|]. split; [exact G|]. split; [exact G2|].
        intros [|i] L; [reflexivity|]. cbn. apply I. lia.
      * apply Nat.eqb_neq in E. injection H as <- <- <-. split; [reflexivity|]. split; [now right|].
        split; [cbn; lia|]. split; [cbn; lia|]. split; [discriminate|]. split; [|split; [reflexivity|intros; lia]].
        intros _ x x' X Y. cbn in X, Y. congruence.
Qed.

Lemma nth_skipn {A} (l : list A) : forall m i, nth_error (skipn m l) i = nth_error l (m + i).
Proof.
  induction l as [|x l IH]; intros [|m] i; cbn; auto. now destruct i.
Qed.

Lemma finish_ok q ok : forall ks r, (forall k, In k ks -> In k r) -> finish q ok ks r = Some r.
Proof.
  induction ks as [|k ks IH]; intros r H; cbn; [reflexivity|].
  assert (M : mem k r = true) by (apply mem_in, H; now left). rewrite M. apply IH. intros x X. apply H. now right.
Qed.

(** *** The invariant of calm runs *)

Definition busy (s : st) : bool := match lis s with Rest => false | _ => true end.

Record Inv (s : st) : Prop := {
  i_com : com s <= length (log s);
  i_pos : forall i k, nth_error (log s) i = Some k -> pos k = S i;
  i_quiet : quiet s = busy s;
  i_latch : match lis s with Rest => True | Wait n => latch s = Some n | Cleared n => latch s = Some n /\ n - 1 <= com s end;
  i_batch : match batch s with
            | None => True
            | Some (start, ks) => 1 <= start /\ start <= S (length (log s)) /\ placed pos start ks = true /\
                seen (com s) (log s) (reqs s) start ks /\
                match lis s with
                | Rest => True
                | Wait n => start + length ks - 1 < n
                | Cleared n => start + length ks - 1 <= com s
                end
            end }.

Lemma init_inv : Inv init.
Proof. split; cbn; auto. intros [|i] k; discriminate. Qed.

Lemma seen_incl c lg r r' start ks : incl r r' -> seen c lg r start ks -> seen c lg r' start ks.
Proof. intros I S1 j k N. destruct (S1 j k N) as [X|[X|X]]; auto. Qed.

Definition next (b : bool) (e : ev) : bool :=
  match e with Batch _ _ _ (NoSpace _) => true | Resume => false | _ => b end.
Definition fine (b : bool) (e : ev) : Prop :=
  match e with Append true _ | Lead => b = false | _ => True end.

Lemma calm_cons b e l : calm b (e :: l) <-> fine b e /\ calm (next b e) l.
Proof.
  destruct e as [k ok|start ks oks [| |n]|[] ok| | | |]; cbn; tauto.
Qed.

Lemma append_ok s start ks m old new rolled ok :
  Inv s -> batch s = Some (start, ks) -> differ (skipn (start - 1) (log s)) ks = (m, old, new) ->
  eqb rolled (match old with [] => false | _ => true end) = true ->
  rolled && ((start + m <=? com s) || existsb (fun k => mem k old) new) = false ->
  finish (quiet s) ok new (filter (fun k => negb (mem k old)) (reqs s)) = Some (filter (fun k => negb (mem k old)) (reqs s)).
Proof.
  intros I B D R G. apply finish_ok. intros k K.
  assert (HB := i_batch _ I). rewrite B in HB. destruct HB as (S1 & S2 & PL & SE & _).
  destruct (differ_spec _ _ _ _ _ D) as (A1 & A2 & A3 & A4 & A5 & A6 & A7 & A8).
  assert (NN : new <> []) by (intros ->; destruct K).
  apply In_nth_error in K. destruct K as [t T]. assert (T0 := T). rewrite A1, nth_skipn in T.
  assert (NO : ~ In k old).
  { destruct rolled; apply eqb_prop in R.
    - cbn [andb] in G. apply orb_false_iff in G. destruct G as [_ G]. intros O.
      assert (X : existsb (fun k => mem k old) new = true).
      { apply existsb_exists. exists k. split; [eapply nth_error_In; eauto|now apply mem_in]. }
      congruence.
    - destruct old; [intros []|discriminate]. }
  assert (LN := skipn_length (start - 1) (log s)).
  apply filter_In. split; [|apply negb_true_iff; now apply mem_not].
  destruct (SE _ _ T) as [X|[X|X]]; [| |exact X].
  - exfalso. assert (C := i_com _ I). destruct old as [|o old].
    + specialize (A5 NN eq_refl). lia.
    + destruct rolled; apply eqb_prop in R; [|discriminate]. cbn [andb] in G. apply orb_false_iff in G.
      destruct G as [G _]. apply Nat.leb_gt in G. lia.
  - exfalso. destruct old as [|o old].
    + specialize (A5 NN eq_refl). assert (Y : nth_error (log s) (start + (m + t) - 1) = None).
      { apply nth_error_None. lia. }
      congruence.
    + apply NO. rewrite (A7 NN). apply (nth_error_In _ t). rewrite !nth_skipn. rewrite <- X. f_equal. lia.
Qed.

Lemma step_ok s e : Inv s -> step pos s e <> Abort.
Proof.
  intros I. destruct e as [k ok|start ks oks res|rolled ok| | | |]; cbn [step].
  - destruct (mem k (reqs s) || quiet s || negb ok); discriminate.
  - destruct (batch s); [discriminate|].
    destruct ((1 <=? start) && (start <=? S (length (log s))) && placed pos start ks); [|discriminate].
    destruct (latched (latch s) (start + length ks - 1)); [destruct (pres_eqb res Rejected); discriminate|].
    destruct (prepare (quiet s) (com s) start ks oks (reqs s)) as [r p].
    destruct (pres_eqb res p); [|discriminate]. destruct p; discriminate.
  - destruct (batch s) as [[start ks]|] eqn:B; [|discriminate].
    destruct (differ (skipn (start - 1) (log s)) ks) as [[m old] new] eqn:D.
    destruct (negb (eqb rolled (match old with [] => false | _ => true end))) eqn:R; [discriminate|].
    destruct (rolled && ((start + m <=? com s) || existsb (fun k => mem k old) new)) eqn:G; [discriminate|].
    apply negb_false_iff in R. rewrite (append_ok _ _ _ _ _ _ _ ok I B D R G). discriminate.
  - destruct (nth_error (log s) (com s)); discriminate.
  - destruct (lis s); try discriminate. destruct (n - 1 <=? com s); discriminate.
  - destruct (lis s); discriminate.
  - discriminate.
Qed.

Lemma pres_eq a b : pres_eqb a b = true -> a = b.
Proof. destruct a, b; cbn; try discriminate; auto. intros H. apply Nat.eqb_eq in H. now subst. Qed.

Lemma step_inv s e s' : Inv s -> fine (busy s) e -> step pos s e = Ok s' -> Inv s' /\ busy s' = next (busy s) e.
Proof.
  intros I F H. assert (I0 := I). destruct I as [C P Q L B].
  destruct e as [k ok|start ks oks res|rolled ok| | | |]; cbn [step] in H.
  - destruct (mem k (reqs s) || quiet s || negb ok); injection H as <-; [split; [exact I0|reflexivity]|].
    split; [|reflexivity]. split; cbn [com log quiet latch lis batch reqs]; auto.
    destruct (batch s) as [[start ks]|]; [|exact I]. destruct B as (B1 & B2 & B3 & B4 & B5).
    repeat split; auto. eapply seen_incl; [|exact B4]. intros x X. now right.
  - destruct (batch s) as [|] eqn:EB; [discriminate|].
    destruct ((1 <=? start) && (start <=? S (length (log s))) && placed pos start ks) eqn:G; [|discriminate].
    apply andb_true_iff in G. destruct G as [G G3]. apply andb_true_iff in G. destruct G as [G1 G2].
    apply Nat.leb_le in G1, G2.
    destruct (latched (latch s) (start + length ks - 1)) eqn:LA.
    + destruct (pres_eqb res Rejected) eqn:E; [|discriminate]. apply pres_eq in E. subst res. injection H as <-.
      split; [exact I0|reflexivity].
    + destruct (prepare (quiet s) (com s) start ks oks (reqs s)) as [r p] eqn:PR.
      destruct (pres_eqb res p) eqn:E; [|discriminate]. apply pres_eq in E. subst res.
      destruct p as [| |n]; injection H as <-.
      * split; [|reflexivity]. split; cbn [com log quiet latch lis batch reqs]; auto.
        split; [exact G1|]. split; [exact G2|]. split; [exact G3|]. split; [eapply prepare_seen; eauto|].
        destruct (lis s) as [|n|n] eqn:LI; [exact I| |].
        -- rewrite L in LA. cbn in LA. apply Nat.leb_gt in LA. lia.
        -- destruct L as [L L2]. rewrite L in LA. cbn in LA. apply Nat.leb_gt in LA. lia.
      * split; [|reflexivity]. split; cbn [com log quiet latch lis batch reqs]; auto.
      * split; [|reflexivity]. split; cbn [com log quiet latch lis batch reqs]; auto.
  - destruct (batch s) as [[start ks]|] eqn:EB; [|discriminate].
    destruct (differ (skipn (start - 1) (log s)) ks) as [[m old] new] eqn:D.
    destruct (negb (eqb rolled (match old with [] => false | _ => true end))) eqn:R; [discriminate|].
    destruct (rolled && ((start + m <=? com s) || existsb (fun k => mem k old) new)) eqn:G; [discriminate|].
    apply negb_false_iff in R. rewrite (append_ok _ _ _ _ _ _ _ ok I0 EB D R G) in H. injection H as <-.
    destruct B as (S1 & S2 & PL & SE & _).
    destruct (differ_spec _ _ _ _ _ D) as (A1 & A2 & A3 & A4 & A5 & A6 & A7 & A8).
    rewrite skipn_length in A3, A5.
    assert (NX : busy s = next (busy s) (Append rolled ok)) by reflexivity.
    split; [|exact NX]. split; cbn [com log quiet latch lis batch reqs]; auto.
    + destruct new as [|x new]; [exact C|]. rewrite app_length, firstn_length_le by lia. cbn [length].
      destruct old as [|o old].
      * assert (X := A5 ltac:(discriminate) eq_refl). lia.
      * destruct rolled; apply eqb_prop in R; [|discriminate]. cbn [andb] in G. apply orb_false_iff in G.
        destruct G as [G _]. apply Nat.leb_gt in G. lia.
    + intros i k N. destruct new as [|x new]; [eauto|].
      destruct (Nat.lt_ge_cases i (start - 1 + m)) as [Y|Y].
      * rewrite nth_error_app1 in N by (rewrite firstn_length_le by lia; exact Y).
        apply P. rewrite <- (firstn_skipn (start - 1 + m) (log s)).
        rewrite nth_error_app1 by (rewrite firstn_length_le by lia; exact Y). exact N.
      * rewrite nth_error_app2 in N by (rewrite firstn_length_le by lia; exact Y).
        rewrite firstn_length_le in N by lia. rewrite A1, nth_skipn in N.
        rewrite (placed_nth _ _ _ _ PL N). lia.
    + destruct rolled; [|exact L]. cbn in F. unfold busy in F. now destruct (lis s).
  - destruct (nth_error (log s) (com s)) as [kc|] eqn:N; [|discriminate]. injection H as <-.
    assert (CL : com s < length (log s)) by (apply nth_error_Some; congruence).
    split; [|reflexivity]. split; cbn [com log quiet latch lis batch reqs]; auto.
    + destruct (lis s); auto. destruct L; split; [assumption|lia].
    + destruct (batch s) as [[start ks]|]; [|exact I]. destruct B as (B1 & B2 & B3 & B4 & B5).
      split; [exact B1|]. split; [exact B2|]. split; [exact B3|]. split.
      * intros j k NK. destruct (B4 j k NK) as [X|[X|X]]; [left; lia|right; now left|].
        destruct (Nat.eq_dec k kc) as [->|NE].
        -- left. assert (E1 := P _ _ N). assert (E2 := placed_nth _ _ _ _ B3 NK). lia.
        -- right. right. apply filter_In. split; [exact X|]. apply negb_true_iff. now apply Nat.eqb_neq.
      * destruct (lis s); auto; lia.
  - destruct (lis s) as [|n|n] eqn:LI; try discriminate.
    destruct (n - 1 <=? com s) eqn:G; [|discriminate]. apply Nat.leb_le in G. injection H as <-.
    assert (BU : busy s = true) by (unfold busy; now rewrite LI).
    split; [|cbn; now rewrite BU]. split; cbn [com log quiet latch lis batch reqs]; auto.
    + rewrite Q, BU. reflexivity.
    + destruct (batch s) as [[start ks]|]; [|exact I]. destruct B as (B1 & B2 & B3 & B4 & B5).
      split; [exact B1|]. split; [exact B2|]. split; [exact B3|]. split; [|lia].
      intros j k NK. left. assert (J : j < length ks) by (apply nth_error_Some; congruence). lia.
  - destruct (lis s) as [|n|n] eqn:LI; try discriminate. injection H as <-.
    split; [|reflexivity]. split; cbn [com log quiet latch lis batch reqs]; auto.
    destruct (batch s) as [[start ks]|]; [|exact I]. destruct B as (B1 & B2 & B3 & B4 & _). auto.
  - injection H as <-. split; [|reflexivity]. split; cbn [com log quiet latch lis batch reqs]; auto.
    cbn in F. unfold busy in F. now destruct (lis s).
Qed.

Lemma run_ok l : forall s, Inv s -> calm (busy s) l -> run pos s l <> Abort.
Proof.
  induction l as [|e l IH]; intros s I H; cbn [run]; [discriminate|].
  apply calm_cons in H. destruct H as [F H].
  assert (X := step_ok s e I). destruct (step pos s e) as [s1| |] eqn:E; try congruence.
  destruct (step_inv _ _ _ I F E) as [I1 B1]. apply IH; [exact I1|]. now rewrite B1.
Qed.

End P.
