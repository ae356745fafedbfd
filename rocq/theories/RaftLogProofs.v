(** * Proofs about the raft log store. *)
From Coq Require Import NArith ZArith List Bool Lia.
From Verif Require Import Base RaftLogModel RaftLogSpec.
Import ListNotations.
Open Scope Z_scope.
Set Default Goal Selector "!".

Definition slot_ok (s : log) (p : Z) (x : Z * option entry) : Prop :=
  x = (0, None) \/
  (1 <= fst x < l_next s /\ p = pos_of (fst x) /\
   exists e, snd x = Some e /\ (l_first s <= fst x -> l_at s (fst x) = Some e)).

Record R (r : rls) (s : log) : Prop := MkR {
  R_first : 1 <= l_first s;
  R_start : h_start (r_store r) = l_first s - 1;
  R_next : h_next (r_store r) = l_next s - 1;
  R_tail : h_start (r_store r) - 1 <= h_tail (r_store r) < h_next (r_store r);
  R_fl : l_flushed s - 1 <= h_tail (r_store r);
  R_dur : r_durable r < h_next (r_store r);
  R_rec : forall i, l_first s <= i < l_next s -> h_rec (r_store r) (i - 1) = l_at s i;
  R_cache : forall p, slot_ok s p (r_cache r p) }.

Lemma l_at_some : forall s i, l_first s <= i < l_next s -> exists e, l_at s i = Some e.
Proof.
  intros s i H. unfold l_at, l_next in *.
  destruct (Z.ltb_spec i (l_first s)) as [Hl|Hl]; [lia|].
  destruct (nth_error (l_ents s) (Z.to_nat (i - l_first s))) eqn:E; [eauto|].
  apply nth_error_None in E. lia.
Qed.
Lemma l_at_none : forall s i, l_next s <= i -> l_at s i = None.
Proof.
  intros s i H. unfold l_at, l_next in *.
  destruct (Z.ltb_spec i (l_first s)) as [Hl|Hl]; [reflexivity|].
  apply nth_error_None. lia.
Qed.

Lemma issued_ok : forall r s, R r s -> hls_issued (r_store r) (r_durable r) = l_next s - 2.
Proof.
  intros r s H. destruct H. unfold hls_issued.
  destruct (Z.ltb_spec (Z.max (r_durable r + 1) (h_start (r_store r))) (h_next (r_store r))); lia.
Qed.

(** Reading through the cache. *)
Lemma read_ok : forall r s i, R r s -> l_first s <= i < l_next s ->
  exists h e, hls_read (r_store r) (to_store i) = (h, Some e) /\ l_at s i = Some e /\
              R (Rls h (r_cache r) (r_durable r)) s.
Proof.
  intros r s i H Hi. destruct (l_at_some s i Hi) as [e He].
  unfold hls_read, to_store.
  pose proof H as H'. destruct H'.
  destruct (Z.ltb_spec (i - 1) (h_start (r_store r))) as [?|_]; [lia|].
  destruct (Z.leb_spec (h_next (r_store r)) (i - 1)) as [?|_]; [lia|]. cbn [orb].
  eexists _, e. split; [|split; [exact He|]].
  - f_equal. destruct (h_tail (r_store r) <? i - 1); cbn [hls_flush h_rec]; rewrite R_rec0; assumption.
  - destruct (Z.ltb_spec (h_tail (r_store r)) (i - 1)); constructor; cbn [r_store r_cache r_durable hls_flush h_start h_next h_tail h_rec]; auto; lia.
Qed.
Lemma cached_ok : forall r s i, R r s -> l_first s <= i < l_next s -> fst (r_cache r (pos_of i)) = i ->
  exists e, snd (r_cache r (pos_of i)) = Some e /\ l_at s i = Some e.
Proof.
  intros r s i H Hi E. destruct H. destruct (R_cache0 (pos_of i)) as [Hz|(Hr & _ & e & He & Hat)].
  - rewrite Hz in E. cbn in E. lia.
  - exists e. rewrite E in Hat. split; [exact He|]. apply Hat. lia.
Qed.

(** What a change of the log does to the cache. *)
Lemma slot_mono : forall s s' p x, slot_ok s p x -> l_next s <= l_next s' ->
  (forall i, l_first s' <= i -> l_first s <= i < l_next s -> l_at s' i = l_at s i) ->
  l_first s <= l_first s' -> slot_ok s' p x.
Proof.
  intros s s' p x [Hz|(Hr & Hp & e & He & Hat)] Hn Hsame Hf; [left; exact Hz|right].
  split; [lia|]. split; [exact Hp|]. exists e. split; [exact He|].
  intros Hl. rewrite Hsame by lia. apply Hat. lia.
Qed.

Lemma l_at_app : forall f l e fl fl' i, f <= i < f + Z.of_nat (length l) ->
  l_at (Log f (l ++ [e]) fl) i = l_at (Log f l fl') i.
Proof.
  intros f l e fl fl' i H. unfold l_at. cbn [l_first l_ents].
  destruct (Z.ltb_spec i f); [lia|]. apply nth_error_app1. lia.
Qed.
Lemma l_at_new : forall f l e fl, l_at (Log f (l ++ [e]) fl) (f + Z.of_nat (length l)) = Some e.
Proof.
  intros f l e fl. unfold l_at. cbn [l_first l_ents].
  destruct (Z.ltb_spec (f + Z.of_nat (length l)) f); [lia|].
  replace (Z.to_nat (f + Z.of_nat (length l) - f)) with (length l) by lia.
  rewrite nth_error_app2 by lia. now rewrite Nat.sub_diag.
Qed.
Lemma l_at_firstn : forall f l n fl fl' i, i < f + Z.of_nat n -> l_at (Log f (firstn n l) fl) i = l_at (Log f l fl') i.
Proof.
  intros f l n fl fl' i H. unfold l_at. cbn [l_first l_ents].
  destruct (Z.ltb_spec i f) as [|Hge]; [reflexivity|].
  assert (Hk : (Z.to_nat (i - f) < n)%nat) by lia. clear H Hge.
  revert n Hk. generalize (Z.to_nat (i - f)) as k. intros k. revert l.
  induction k as [|k IH]; intros [|x l] n Hk; destruct n as [|n]; try lia; try reflexivity.
  cbn. apply IH. lia.
Qed.
Lemma l_at_skipn : forall f l n fl fl' i, f + Z.of_nat n <= i ->
  l_at (Log (f + Z.of_nat n) (skipn n l) fl) i = l_at (Log f l fl') i.
Proof.
  intros f l n fl fl' i H. unfold l_at. cbn [l_first l_ents].
  destruct (Z.ltb_spec i (f + Z.of_nat n)); [lia|]. destruct (Z.ltb_spec i f); [lia|].
  replace (Z.to_nat (i - f)) with (n + Z.to_nat (i - (f + Z.of_nat n)))%nat by lia.
  generalize (Z.to_nat (i - (f + Z.of_nat n))) as k. clear H. clear.
  revert l. induction n as [|n IH]; intros l k; [reflexivity|].
  destruct l as [|x l]; [now destruct k|]. cbn. apply IH.
Qed.
Lemma l_at_fl : forall f l fl fl' i, l_at (Log f l fl) i = l_at (Log f l fl') i.
Proof. reflexivity. Qed.

Lemma append_ok : forall r f l fl e, R r (Log f l fl) ->
  R (fst (append r e)) (Log f (l ++ [e]) fl) /\ snd (append r e) = f + Z.of_nat (length l).
Proof.
  intros r f l fl e H. destruct H. cbn [l_first l_flushed] in *. unfold l_next in *. cbn [l_first l_ents] in *.
  split; [|cbn; unfold to_repl; lia].
  constructor; cbn [append fst r_store r_cache r_durable hls_append h_start h_next h_tail h_rec l_first l_flushed];
    unfold l_next; cbn [l_first l_ents]; rewrite ?app_length; cbn [length]; try lia.
  - intros i Hi. destruct (Z.eqb_spec (i - 1) (h_next (r_store r))) as [E|E].
    + replace i with (f + Z.of_nat (length l)) by lia. now rewrite l_at_new.
    + rewrite (l_at_app _ _ _ _ fl) by lia. apply R_rec0. lia.
  - intros p. unfold cache_put. destruct (Z.eqb_spec p (pos_of (to_repl (h_next (r_store r))))) as [E|E].
    + right. cbn [fst snd]. unfold l_next. cbn [l_first l_ents]. rewrite app_length. cbn [length].
      unfold to_repl in *. split; [lia|]. split; [exact E|]. exists e. split; [reflexivity|]. intros _.
      replace (h_next (r_store r) + 1) with (f + Z.of_nat (length l)) by lia. apply l_at_new.
    + eapply slot_mono; [apply R_cache0|..]; unfold l_next; cbn [l_first l_ents]; rewrite ?app_length; cbn [length]; try lia.
      intros i _ Hi. apply l_at_app. lia.
Qed.

Lemma R_flush : forall r s d, R r s -> d < h_next (r_store r) ->
  R (Rls (hls_flush (r_store r)) (r_cache r) d) (all_flushed s).
Proof.
  intros r [f l fl] d H Hd. destruct H.
  constructor; cbn [r_store r_cache r_durable hls_flush h_start h_next h_tail h_rec all_flushed l_first l_flushed];
    unfold l_next in *; cbn [l_first l_ents all_flushed l_flushed] in *; try lia; assumption.
Qed.

(** Going back to [n] entries, with a cache cleared of the later ones. *)
Lemma R_cut : forall r f l fl n tail c d rec,
  R r (Log f l fl) -> (n <= length l)%nat -> tail = f + Z.of_nat n - 2 ->
  (forall p, c p = (0, None) \/ (c p = r_cache r p /\ fst (c p) < f + Z.of_nat n)) ->
  d <= tail ->
  (forall i, f <= i < f + Z.of_nat n -> rec (i - 1) = l_at (Log f l fl) i) ->
  R (Rls (Hls (f - 1) tail (tail + 1) rec) c d) (all_flushed (Log f (firstn n l) 0)).
Proof.
  intros r f l fl n tail c d rec H Hn Ht Hc Hd Hrec. destruct H.
  unfold l_next in *; cbn [l_first l_ents l_flushed] in *.
  assert (Hlen : length (firstn n l) = n) by (rewrite firstn_length; lia).
  constructor; cbn [r_store r_cache r_durable h_start h_next h_tail h_rec all_flushed l_first l_flushed];
    unfold l_next; cbn [l_first l_ents all_flushed l_flushed]; rewrite ?Hlen; try lia.
  - intros i Hi. rewrite Hrec by lia. symmetry. unfold all_flushed. cbn [l_first l_ents].
    apply l_at_firstn. lia.
  - intros p. destruct (Hc p) as [Hz|[Ec Hlt]]; [left; exact Hz|].
    specialize (R_cache0 p). rewrite Ec. rewrite Ec in Hlt. destruct R_cache0 as [Hz|(Hr & Hp & e & He & Hat)]; [left; exact Hz|right].
    unfold all_flushed, l_next in *; cbn [l_first l_ents] in *. rewrite Hlen. split; [lia|]. split; [exact Hp|].
    exists e. split; [exact He|]. intros Hl. unfold all_flushed. cbn [l_first l_ents].
    rewrite (l_at_firstn f l n _ fl) by lia. apply Hat. exact Hl.
Qed.

Lemma take_lsns : forall (g : Z -> option entry) n a lim l,
  (forall k, (k < n)%nat -> g (a + Z.of_nat k) = nth_error l k) -> (n <= length l)%nat -> lim <= a + Z.of_nat n ->
  take_below lim (flat_map (fun x => match g x with Some e => [(x, e)] | None => [] end) (lsns a n)) = firstn (Z.to_nat (lim - a)) l.
Proof.
  intros g n. induction n as [|n IH]; intros a lim l Hg Hn Hlim.
  - cbn. replace (Z.to_nat (lim - a)) with O by lia. reflexivity.
  - destruct l as [|x l]; [cbn in Hn; lia|].
    cbn [lsns flat_map]. pose proof (Hg O ltac:(lia)) as H0. rewrite Z.add_0_r in H0. cbn in H0. rewrite H0.
    cbn [app take_below].
    destruct (Z.ltb_spec a lim) as [Hl|Hl].
    + replace (Z.to_nat (lim - a)) with (S (Z.to_nat (lim - (a + 1)))) by lia. cbn [firstn app]. f_equal.
      destruct (Z.ltb_spec a (lim - 1)) as [Hm|Hm].
      * apply IH; [|cbn in Hn; lia|lia]. intros k Hk. specialize (Hg (S k) ltac:(lia)). cbn in Hg.
        rewrite <- Hg. f_equal. lia.
      * replace (Z.to_nat (lim - (a + 1))) with O by lia. reflexivity.
    + replace (Z.to_nat (lim - a)) with O by lia. cbn [firstn app].
      destruct (Z.ltb_spec a (lim - 1)); [lia|reflexivity].
Qed.

Lemma nth_skipn : forall {A} (l : list A) n k, nth_error (skipn n l) k = nth_error l (n + k).
Proof. intros A l. induction l as [|x l IH]; intros [|n] k; cbn; try reflexivity; [now destruct k|apply IH]. Qed.

Lemma entries_ok : forall r s a b, R r s -> l_first s <= a -> b - 1 <= l_flushed s ->
  log_entries r a b = l_slice s a b.
Proof.
  intros r [f l fl] a b H Ha Hb. destruct H. unfold l_next in *; cbn [l_first l_ents l_flushed] in *.
  unfold log_entries, l_slice, hls_list, to_store. cbn [l_first l_ents].
  rewrite Z.max_l by lia.
  destruct (Z.leb_spec a b) as [Hab|Hab].
  - destruct (Z.leb_spec a (h_tail (r_store r) + 1)) as [Hat|Hat].
    + rewrite (take_lsns _ _ _ _ (skipn (Z.to_nat (a - f)) l)).
      * f_equal. lia.
      * intros k Hk. rewrite nth_skipn.
        replace (a - 1 + Z.of_nat k) with ((a + Z.of_nat k) - 1) by lia. rewrite R_rec0 by lia.
        unfold l_at. cbn [l_first l_ents]. destruct (Z.ltb_spec (a + Z.of_nat k) f); [lia|]. f_equal. lia.
      * rewrite skipn_length. lia.
      * lia.
    + replace (Z.to_nat (h_tail (r_store r) + 1 - (a - 1))) with O by lia.
      cbn. replace (Z.to_nat (b - a)) with O by lia. reflexivity.
  - replace (Z.to_nat (b - a)) with O by lia. cbn [firstn].
    destruct (lsns (a - 1) (Z.to_nat (h_tail (r_store r) + 1 - (a - 1)))) as [|x t] eqn:E; [reflexivity|].
    assert (Hall : forall n a x, In x (lsns a n) -> a <= x).
    { induction n as [|n IH]; intros c y [] ; [lia|]. specialize (IH _ _ H). lia. }
    assert (Hx : forall y, In y (x :: t) -> b - 1 < y) by (intros y Hy; rewrite <- E in Hy; apply Hall in Hy; lia).
    clear E Hall. generalize dependent (x :: t). clear x t. intros t Hx. induction t as [|x t IH]; [reflexivity|].
    cbn [flat_map]. destruct (h_rec (r_store r) x) as [e|]; cbn [app].
    + cbn [take_below]. pose proof (Hx x (or_introl eq_refl)).
      destruct (Z.ltb_spec x (b - 1)); [lia|]. destruct (Z.ltb_spec x (b - 1 - 1)); [lia|]. reflexivity.
    + apply IH. intros y Hy. apply Hx. now right.
Qed.

Theorem step_ok : forall r s o, R r s -> legal s o ->
  exists r', step r o = Some (r', snd (spec_step s o)) /\ R r' (fst (spec_step s o)).
Proof.
  intros r s o H Hl. destruct o; cbn [legal] in Hl; cbn [step spec_step fst snd].
  - (* append *) destruct s as [f l fl]. pose proof (append_ok r f l fl e H) as [H1 H2].
    destruct (append r e) as [r' i]. cbn [fst snd] in *. exists r'. subst i. split; [reflexivity|exact H1].
  - (* end of batch *) eexists. split; [reflexivity|]. apply R_flush; [exact H|].
    destruct H. unfold to_store. lia.
  - eexists. split; [reflexivity|]. apply R_flush; [exact H|]. now destruct H.
  - (* write at *) destruct s as [f l fl]. unfold l_next in Hl. cbn [l_first l_ents l_flushed] in *.
    pose proof H as H0. destruct H0. unfold l_next in *; cbn [l_first l_ents l_flushed] in *.
    unfold write_at, to_store.
    set (n := Z.to_nat (i - f)).
    assert (Hroll : exists rec, hls_rollback (r_store r) (i - 1 - 1) = Hls (f - 1) (i - 2) (i - 1) rec /\
                    forall j, f <= j < i -> rec (j - 1) = l_at (Log f l fl) j).
    { unfold hls_rollback. destruct (Z.eqb_spec (i - 1 - 1) (h_tail (r_store r))) as [E|E].
      - exists (h_rec (r_store r)). split.
        + destruct (r_store r) as [st tl nx rec]; cbn [h_start h_tail h_next h_rec] in *. f_equal; lia.
        + intros j Hj. apply R_rec0. lia.
      - destruct (Z.ltb_spec (h_tail (r_store r)) (i - 1 - 1)) as [?|_]; [lia|].
        destruct (Z.ltb_spec (i - 1 - 1) (h_start (r_store r) - 1)) as [?|_]; [lia|]. cbn [orb].
        destruct (Z.ltb_spec (h_tail (r_store r) + 1) (h_next (r_store r))) as [?|_]; [lia|].
        eexists. split; [f_equal; try lia; reflexivity|].
        intros j Hj. cbn beta. destruct (Z.leb_spec (j - 1) (i - 1 - 1)); [|lia]. apply R_rec0. lia. }
    destruct Hroll as (rec & Er & Hrec). rewrite Er. cbn [h_next]. unfold to_repl.
    destruct (Z.eqb_spec (i - 1 + 1) i) as [_|?]; [|lia]. cbv zeta.
    eexists. split; [reflexivity|].
    assert (H1 : R (Rls (Hls (f - 1) (i - 2) (i - 2 + 1) rec) (fun p => if i <=? fst (r_cache r p) then (0, None) else r_cache r p) (-1))
                   (all_flushed (Log f (firstn n l) 0))).
    { apply (R_cut r f l fl n); [exact H| | | | |].
      - lia.
      - lia.
      - intros p. destruct (Z.leb_spec i (fst (r_cache r p))) as [?|Hlt]; [now left|right]. split; [reflexivity|lia].
      - lia.
      - intros j Hj. apply Hrec. lia. }
    unfold all_flushed in H1. cbn [l_first l_ents] in H1.
    apply (append_ok _ _ _ _ e) in H1. destruct H1 as [H1 _].
    apply (R_flush _ _ (to_store (i + 1 - 1))) in H1.
    2:{ cbn. unfold to_store. lia. }
    cbn [append fst r_store r_cache h_next] in H1. unfold to_repl in H1.
    assert (Hlen : length (firstn n l) = n) by (rewrite firstn_length; lia).
    unfold end_batch. cbn [r_store r_cache].
    clear Er. destruct H1 as [X1 X2 X3 X4 X5 X6 X7 X8].
    unfold all_flushed, l_next in *; cbn [r_store r_cache r_durable hls_flush hls_append h_start h_next h_tail h_rec l_first l_ents l_flushed] in *.
    replace (i - 2 + 1) with (i - 1) in * by lia. replace (i - 1 + 1) with i in * by lia.
    constructor; cbn [r_store r_cache r_durable hls_flush hls_append h_start h_next h_tail h_rec l_first l_ents l_flushed];
      unfold l_next; cbn [l_first l_ents]; try assumption; try lia.
    intros p. specialize (X8 p). unfold cache_put in *.
    destruct (Z.eqb_spec p (pos_of i)) as [E|E].
    { cbn [fst]. rewrite Z.ltb_irrefl. exact X8. }
    destruct (Z.leb_spec i (fst (r_cache r p))) as [Hge|Hlt].
    + destruct (Z.ltb_spec i (fst (r_cache r p))) as [?|Heq]; [now left|].
      (* same index in another slot cannot be *)
      exfalso. destruct (R_cache0 p) as [Hz|(_ & Hp & _)].
      * rewrite Hz in Hge. cbn in Hge. lia.
      * apply E. rewrite Hp. f_equal. lia.
    + destruct (Z.ltb_spec i (fst (r_cache r p))) as [?|_]; [lia|]. exact X8.
  - (* compact *) destruct s as [f l fl]. cbn [l_first l_ents] in *.
    eexists. split; [destruct (i <? f); reflexivity|]. unfold compact, hls_truncate, to_store.
    pose proof H as H0. destruct H0. unfold l_next in *; cbn [l_first l_ents l_flushed] in *.
    destruct (Z.ltb_spec i f) as [Hlt|Hge].
    { destruct (Z.ltb_spec (i - 1) (h_start (r_store r))) as [_|?]; [|lia]. destruct r; exact H. }
    destruct (Z.ltb_spec (i - 1) (h_start (r_store r))) as [?|_]; [lia|].
    cbn [hls_flush h_tail h_next h_rec fst].
    assert (Hslot : forall fl', forall p, slot_ok (Log (i + 1) (skipn (Z.to_nat (i + 1 - f)) l) fl') p (r_cache r p)).
    { intros fl' p. eapply slot_mono; [apply R_cache0|..]; unfold l_next; cbn [l_first l_ents]; rewrite ?skipn_length; try lia.
      intros j Hj1 Hj2.
      replace (i + 1) with (f + Z.of_nat (Z.to_nat (i + 1 - f))) at 1 by lia.
      apply l_at_skipn. lia. }
    destruct (Z.ltb_spec (h_next (r_store r) - 1) (i - 1)) as [Hb|Hb].
    + rewrite (skipn_all2 l) by lia. rewrite (skipn_all2 l) in Hslot by lia.
      constructor; cbn [r_store r_cache r_durable h_start h_next h_tail h_rec l_first l_ents l_flushed];
        unfold l_next; cbn [l_first l_ents l_flushed length]; try lia.
      exact (Hslot _).
    + constructor; cbn [r_store r_cache r_durable h_start h_next h_tail h_rec l_first l_ents l_flushed];
        unfold l_next; cbn [l_first l_ents l_flushed]; rewrite ?skipn_length; try lia.
      * intros j Hj. rewrite R_rec0 by lia. symmetry.
        replace (i + 1) with (f + Z.of_nat (Z.to_nat (i + 1 - f))) at 1 by lia.
        apply l_at_skipn. lia.
      * exact (Hslot _).
  - (* purge *) destruct s as [f l fl]. eexists. split; [reflexivity|].
    unfold purge_all. rewrite (issued_ok r _ H). unfold hls_truncate.
    pose proof H as H0. destruct H0. unfold l_next in *; cbn [l_first l_ents l_flushed] in *.
    assert (Hslot : forall fl' p, slot_ok (Log (f + Z.of_nat (length l)) [] fl') p (r_cache r p)).
    { intros fl' p. eapply slot_mono; [apply R_cache0|..]; unfold l_next; cbn [l_first l_ents length]; try lia. }
    destruct (Z.ltb_spec (f + Z.of_nat (length l) - 2) (h_start (r_store r))) as [Hlt|Hge].
    + assert (El : l = []) by (destruct l; [reflexivity|cbn in Hlt; lia]). subst l. cbn [length] in *.
      destruct r as [h c d]. cbn [r_store r_cache r_durable] in *.
      constructor; cbn [r_store r_cache r_durable h_start h_next h_tail h_rec l_first l_ents l_flushed];
        unfold l_next; cbn [l_first l_ents l_flushed length]; try lia. exact (Hslot _).
    + cbn [hls_flush h_tail h_next h_rec].
      destruct (Z.ltb_spec (h_next (r_store r) - 1) (f + Z.of_nat (length l) - 2)) as [?|_]; [lia|].
      constructor; cbn [r_store r_cache r_durable h_start h_next h_tail h_rec l_first l_ents l_flushed];
        unfold l_next; cbn [l_first l_ents l_flushed length]; try lia. exact (Hslot _).
  - (* durable *) eexists. split; [reflexivity|]. cbn [fst last_durable].
    destruct H. constructor; cbn [r_store r_cache r_durable]; try assumption.
    unfold hls_completed. destruct (Z.leb_spec (Z.max (r_durable r + 1) (h_start (r_store r))) (h_tail (r_store r))); lia.
  - (* restart *) destruct s as [f l fl]. eexists. split; [reflexivity|].
    pose proof H as H0. destruct H0. unfold l_next in *; cbn [l_first l_ents l_flushed] in *.
    unfold restart, to_store. rewrite R_start0.
    destruct (Z.leb_spec f (i + 1)) as [Hf|Hf].
    + apply (R_cut r f l fl (Z.to_nat (i + 1 - f))); [exact H|lia|lia|intros p; now left| |].
      * lia.
      * intros j Hj. destruct (Z.leb_spec (j - 1) (i - 1)); [|lia]. apply R_rec0. lia.
    + lia.
  - (* entry *) unfold entry_at. pose proof (l_at_some s i Hl) as [e He]. rewrite He.
    destruct (Z.eqb_spec (fst (r_cache r (pos_of i))) i) as [E|E].
    + destruct (cached_ok r s i H Hl E) as (e' & Hs & Ha). rewrite Hs. exists r. split; [|exact H].
      cbn [seen]. congruence.
    + destruct (read_ok r s i H Hl) as (h & e' & Er & Ha & HR). rewrite Er. eexists. split; [|exact HR].
      cbn [seen]. congruence.
  - unfold term_at. pose proof (l_at_some s i Hl) as [e He]. rewrite He.
    destruct (Z.eqb_spec (fst (r_cache r (pos_of i))) i) as [E|E].
    + destruct (cached_ok r s i H Hl E) as (e' & Hs & Ha). rewrite Hs. exists r. split; [|exact H]. congruence.
    + destruct (read_ok r s i H Hl) as (h & e' & Er & Ha & HR). rewrite Er. eexists. split; [|exact HR]. congruence.
  - (* last *) unfold last_entry. rewrite (issued_ok r s H).
    pose proof H as H0. destruct H0.
    destruct (Z.ltb_spec (l_next s - 2) 0) as [Hneg|Hpos].
    + assert (Hn : l_at s (l_next s - 1) = None).
      { unfold l_at, l_next in *. destruct (Z.ltb_spec (l_first s + Z.of_nat (length (l_ents s)) - 1) (l_first s)); [reflexivity|lia]. }
      rewrite Hn. exists r. split; [reflexivity|exact H].
    + assert (Hi : l_first s <= l_next s - 1 < l_next s).
      { unfold l_next in *. destruct Hl as [Hne|Hz]; [|lia]. destruct (l_ents s); [congruence|]. cbn [length]. lia. }
      unfold to_repl. replace (l_next s - 2 + 1) with (l_next s - 1) by lia.
      pose proof (l_at_some s _ Hi) as [e He]. rewrite He.
      destruct (Z.eqb_spec (fst (r_cache r (pos_of (l_next s - 1)))) (l_next s - 1)) as [E|E].
      * destruct (cached_ok r s _ H Hi E) as (e' & Hs & Ha). rewrite Hs. exists r. split; [|exact H].
        cbn [seen]. congruence.
      * destruct (read_ok r s _ H Hi) as (h & e' & Er & Ha & HR).
        unfold to_store in Er. replace (l_next s - 1 - 1) with (l_next s - 2) in Er by lia. rewrite Er.
        eexists. split; [|exact HR]. cbn [seen]. congruence.
  - exists r. unfold next_slot, to_repl. rewrite (issued_ok r s H). split; [|exact H]. repeat f_equal. lia.
  - exists r. unfold start_index, to_repl. destruct H. split; [|now constructor]. repeat f_equal. lia.
  - exists r. split; [|exact H]. unfold log_entries_ext.
    do 3 f_equal. destruct (Z.ltb_spec hint 0) as [Hh|Hh].
    + apply entries_ok; [exact H|lia|lia].
    + destruct (Z.ltb_spec 0 hint) as [Hp|Hp].
      * destruct (Z.eqb_spec hint 0); [lia|]. rewrite (Z.min_comm b). apply entries_ok; [exact H|lia|lia].
      * destruct (Z.eqb_spec hint 0); [|lia]. apply entries_ok; [exact H|lia|lia].
Qed.

Lemma R_new : R rls_new new_log.
Proof. constructor; cbn; try lia; intros; now left. Qed.

Theorem run_ok : forall l r s, R r s -> legal_run s l ->
  exists r', run r l = Some (r', snd (spec_run s l)) /\ R r' (fst (spec_run s l)).
Proof.
  induction l as [|o l IH]; intros r s H Hl.
  - exists r. split; [reflexivity|exact H].
  - destruct Hl as [Ho Hl]. destruct (step_ok r s o H Ho) as (r1 & E1 & H1).
    cbn [run spec_run]. rewrite E1.
    destruct (spec_step s o) as [s1 v] eqn:Es. cbn [fst snd] in *.
    destruct (IH r1 s1 H1 Hl) as (r2 & E2 & H2). rewrite E2.
    destruct (spec_run s1 l) as [s2 vs]. exists r2. split; [reflexivity|exact H2].
Qed.

(** last_durable_index *)
Lemma durable_ok : forall r s, R r s ->
  l_flushed s <= snd (last_durable r) < l_next s /\
  (l_flushed s = l_next s - 1 -> snd (last_durable r) = l_next s - 1).
Proof.
  intros r s H. destruct H. unfold last_durable, to_repl, hls_completed. cbn [snd].
  destruct (Z.leb_spec (Z.max (r_durable r + 1) (h_start (r_store r))) (h_tail (r_store r))); lia.
Qed.

(** Packs. *)
Lemma pack_ok : forall r s i n, R r s -> l_first s <= i -> i + Z.of_nat n - 1 <= l_flushed s ->
  pack r i n = (n, l_slice s i (i + Z.of_nat n)).
Proof.
  intros r [f l fl] i n H Hi Hn. unfold pack. f_equal.
  destruct H. unfold l_next in *; cbn [l_first l_ents l_flushed] in *.
  unfold l_slice, hls_list, to_store. cbn [l_first l_ents]. rewrite Z.max_l by lia.
  replace (Z.to_nat (i + Z.of_nat n - i)) with n by lia.
  destruct n as [|n']; [reflexivity|]. remember (S n') as n eqn:En.
  assert (Hm : forall m a l0, (forall k, (k < m)%nat -> h_rec (r_store r) (a + Z.of_nat k) = nth_error l0 k) -> (m <= length l0)%nat ->
    map snd (flat_map (fun x => match h_rec (r_store r) x with Some e => [(x, e)] | None => [] end) (lsns a m)) = firstn m l0).
  { induction m as [|m IH]; intros a l0 Hg Hlen; [reflexivity|].
    destruct l0 as [|x l0]; [cbn in Hlen; lia|]. cbn [lsns flat_map firstn].
    pose proof (Hg O ltac:(lia)) as H0. rewrite Z.add_0_r in H0. cbn in H0. rewrite H0. cbn [app map snd]. f_equal.
    apply IH; [|cbn in Hlen; lia]. intros k Hk. specialize (Hg (S k) ltac:(lia)). cbn in Hg. rewrite <- Hg. f_equal. lia. }
  rewrite (Hm _ _ (skipn (Z.to_nat (i - f)) l)).
  - rewrite firstn_firstn. f_equal. lia.
  - intros k Hk. rewrite nth_skipn.
    replace (i - 1 + Z.of_nat k) with ((i + Z.of_nat k) - 1) by lia. rewrite R_rec0 by lia.
    unfold l_at. cbn [l_first l_ents]. destruct (Z.ltb_spec (i + Z.of_nat k) f); [lia|]. f_equal. lia.
  - rewrite skipn_length. lia.
Qed.

Lemma append_n_ok : forall l r f l0 fl, R r (Log f l0 fl) ->
  exists r', append_n r (length l) l = Some r' /\ R r' (Log f (l0 ++ l) fl).
Proof.
  induction l as [|e l IH]; intros r f l0 fl H.
  - exists r. cbn. rewrite app_nil_r. split; [reflexivity|exact H].
  - cbn [length append_n]. destruct (append_ok r f l0 fl e H) as [H1 _].
    destruct (IH _ _ _ _ H1) as (r' & E & H2). exists r'. split; [exact E|].
    now rewrite <- app_assoc in H2.
Qed.

Lemma apply_ok : forall r s l, R r s ->
  exists r', apply_pack r (l_next s) (length l, l) = Some r' /\
             R r' (all_flushed (Log (l_first s) (l_ents s ++ l) 0)).
Proof.
  intros r s l H. unfold apply_pack.
  assert (En : next_slot r = l_next s) by (unfold next_slot, to_repl; rewrite (issued_ok r s H); lia).
  rewrite En, Z.ltb_irrefl. cbn [fst snd].
  destruct s as [f l0 fl]. destruct (append_n_ok l r f l0 fl H) as (r' & E & H1). rewrite E.
  eexists. split; [reflexivity|]. unfold end_batch.
  change (all_flushed (Log (l_first (Log f l0 fl)) (l_ents (Log f l0 fl) ++ l) 0))
    with (all_flushed (Log f (l0 ++ l) fl)).
  apply R_flush; [exact H1|]. destruct H1. unfold l_next in *. cbn [l_first l_ents] in *. rewrite app_length in *.
  unfold to_store. lia.
Qed.
