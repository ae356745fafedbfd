(** * Proofs about allocation over chunks. *)
From Coq Require Import Arith NArith List Bool Lia.
From Verif Require Import Base ExtSpec ExtFacts VdevAllocModel VdevAllocSpec.
Import ListNotations.
Local Open Scope N_scope.

Section Chunks.
Variable chunks : list N.

Lemma nth_skipn : forall i (l : list N) c, nth_error l i = Some c -> skipn i l = c :: skipn (S i) l.
Proof. induction i; intros [|x l] c H; cbn in *; try discriminate; [congruence|auto]. Qed.
Lemma firstn_snoc : forall i (l : list N) c, nth_error l i = Some c -> firstn (S i) l = firstn i l ++ [c].
Proof.
  induction i; intros [|x l] c H; try discriminate; [cbn in *; congruence|].
  cbn in H. change (firstn (S (S i)) (x :: l)) with (x :: firstn (S i) l). rewrite (IHi _ _ H). reflexivity.
Qed.

(** A selection takes the head of the turn to its end. *)
Lemma select_turn idx c r : turn chunks idx = c :: r ->
  exists idx', select chunks idx = Some (c, idx') /\ turn chunks idx' = r ++ [c].
Proof.
  unfold select, turn. intros H.
  set (i := if (length chunks <=? idx)%nat then 0%nat else idx) in *.
  destruct (nth_error chunks i) as [x|] eqn:E.
  - rewrite (nth_skipn _ _ _ E), <- app_comm_cons in H. pose proof (f_equal (@tl N) H) as H2. pose proof (f_equal (hd 0) H) as H1. cbn [tl hd] in H1, H2. subst x r.
    exists (S i). split; [reflexivity|].
    assert (Hi : (i < length chunks)%nat) by (apply nth_error_Some; congruence).
    destruct (Nat.leb_spec (length chunks) (S i)).
    + change (skipn 0 chunks) with chunks. change (firstn 0 chunks) with (@nil N). rewrite app_nil_r, skipn_all2 by lia. cbn [app].
      rewrite <- (firstn_snoc _ _ _ E). symmetry. apply firstn_all2. lia.
    + rewrite (firstn_snoc _ _ _ E), app_assoc. reflexivity.
  - apply nth_error_None in E. subst i.
    destruct (Nat.leb_spec (length chunks) idx); [|lia].
    cbn in E. destruct chunks; [discriminate|cbn in E; lia].
Qed.
Lemma turn_perm idx : forall c, In c (turn chunks idx) <-> In c chunks.
Proof.
  intros c. unfold turn. set (i := if (length chunks <=? idx)%nat then 0%nat else idx).
  rewrite in_app_iff. rewrite <- (firstn_skipn i chunks) at 3. rewrite in_app_iff. tauto.
Qed.
Lemma turn_length idx : length (turn chunks idx) = length chunks.
Proof.
  unfold turn. set (i := if (length chunks <=? idx)%nat then 0%nat else idx).
  rewrite app_length, Nat.add_comm, <- app_length, firstn_skipn. reflexivity.
Qed.
Lemma turn_nodup idx : NoDup chunks -> NoDup (turn chunks idx).
Proof.
  intros H. unfold turn. set (i := if (length chunks <=? idx)%nat then 0%nat else idx).
  apply (Permutation.Permutation_NoDup (l := firstn i chunks ++ skipn i chunks)); [apply Permutation.Permutation_app_comm|].
  now rewrite firstn_skipn.
Qed.
End Chunks.

Section S.
Variable A : Type.
Variable alc : A -> N -> list ext -> option (A * status * list ext).
Variable fre : A -> list ext -> option A.
Variable pok look : bool.
Variable chunks : list N.
Variable ok : N -> Prop.
Variable holds : A -> list ext -> Prop.
Hypothesis L : lawful alc fre pok ok holds.

Lemma upd_same st c (a : A) : upd st c a c = a.
Proof. unfold upd. now rewrite N.eqb_refl. Qed.
Lemma upd_other st c (a : A) c' : c' <> c -> upd st c a c' = st c'.
Proof. intros H. unfold upd. now destruct (N.eqb_spec c' c). Qed.

(** One chunk, from an empty id. *)
Lemma from_chunk_ok st n c l : holds (st c) l -> ok n ->
  exists a s o, from_chunk alc fre pok st n none c = Some (upd st c a, s, o) /\
    match s with
    | Success => o_chunk o = c /\ o_pieces o <> [] /\ blocks (o_pieces o) = n /\ holds a (o_pieces o ++ l)
    | Partial => pok = true /\ o_chunk o = c /\ 0 < blocks (o_pieces o) < n /\ holds a (o_pieces o ++ l)
    | Fail => o = none /\ holds a l /\ refuses alc pok (st c) n
    end.
Proof.
  intros Hh Hn. destruct (la_alloc _ _ _ _ _ L _ _ _ Hh Hn) as (a & s & p & E & P).
  unfold from_chunk. cbn [o_pieces none]. rewrite E. unfold place. cbn [o_pieces length none o_chunk].
  destruct s.
  - destruct P as (P0 & P1 & P2). destruct p as [|x p]; [congruence|]. cbn [length Nat.eqb].
    eexists a, Success, (Out c (x :: p)). split; [reflexivity|]. cbn. auto.
  - destruct P as (P1 & P2). destruct p as [|x p]; [cbn in P1; lia|]. cbn [length Nat.eqb].
    destruct pok eqn:Ep.
    + eexists a, Partial, (Out c (x :: p)). split; [reflexivity|]. cbn. auto.
    + destruct P2 as (a2 & F & H2). cbn [o_pieces]. rewrite F. eexists a2, Fail, none.
      split; [reflexivity|]. split; [reflexivity|]. split; [exact H2|].
      eexists _, _, _. split; [exact E|]. right. split; reflexivity.
  - destruct P as (-> & P2). cbn [length Nat.eqb]. eexists a, Fail, none.
    split; [reflexivity|]. split; [reflexivity|]. split; [exact P2|].
    eexists _, _, _. split; [exact E|]. left. reflexivity.
Qed.

(** The loop, along the turn. *)
Lemma attempts_ok n (live : N -> list ext) : ok n -> forall l k st idx dn,
  turn chunks idx = l ++ dn -> length l = S k -> NoDup l ->
  (forall c, In c l -> holds (st c) (live c)) ->
  exists st' idx' s o l1 c l2, attempts alc fre pok look chunks k st idx n none = Some (st', idx', s, o) /\
    l = l1 ++ c :: l2 /\ turn chunks idx' = l2 ++ dn ++ l1 ++ [c] /\
    (forall x, In x l1 -> refuses alc pok (st x) n /\ holds (st' x) (live x)) /\
    (forall x, ~ In x l1 -> x <> c -> st' x = st x) /\
    (look = false -> l1 = []) /\
    match s with
    | Success => o_chunk o = c /\ blocks (o_pieces o) = n /\ holds (st' c) (o_pieces o ++ live c)
    | Partial => pok = true /\ o_chunk o = c /\ 0 < blocks (o_pieces o) < n /\ holds (st' c) (o_pieces o ++ live c)
    | Fail => o = none /\ holds (st' c) (live c) /\ refuses alc pok (st c) n /\ (look = true -> l2 = [])
    end.
Proof.
  intros Hn. induction l as [|c l IH]; intros k st idx dn Ht Hk Hd Hh; [discriminate|].
  cbn [app] in Ht. destruct (select_turn _ _ _ _ Ht) as (idx' & Es & Ht').
  destruct (from_chunk_ok st n c (live c) (Hh c (or_introl eq_refl)) Hn) as (a & s & o & Ef & P).
  inversion_clear Hd as [|? ? Hni Hd'].
  destruct (final pok s || negb look) eqn:Eb.
  - exists (upd st c a), idx', s, o, [], c, l.
    split; [destruct k; cbn [attempts]; rewrite Es, Ef, Eb; reflexivity|].
    split; [reflexivity|]. split; [cbn [app]; rewrite Ht', <- app_assoc; reflexivity|].
    split; [intros x []|]. split; [intros x _ Hx; now apply upd_other|]. split; [reflexivity|].
    rewrite upd_same. destruct s; [tauto|tauto|].
    destruct P as (P1 & P2 & P3). cbn in Eb. ands; auto. intros Hl. rewrite Hl in Eb. discriminate.
  - apply orb_false_iff in Eb as [Eb1 Eb2]. apply negb_false_iff in Eb2.
    assert (Pf : o = none /\ s = Fail).
    { destruct s; cbn in Eb1; [discriminate| |tauto]. destruct P as [P _]. congruence. }
    destruct Pf as [-> ->]. destruct P as (_ & P2 & P3).
    destruct l as [|c2 l].
    + assert (k = 0%nat) as -> by (cbn in Hk; lia).
      exists (upd st c a), idx', Fail, none, [], c, [].
      split; [cbn [attempts]; rewrite Es, Ef; cbn [final orb]; rewrite Eb2; reflexivity|].
      split; [reflexivity|]. split; [cbn [app]; rewrite Ht'; reflexivity|].
      split; [intros x []|]. split; [intros x _ Hx; now apply upd_other|]. split; [reflexivity|].
      rewrite upd_same. auto.
    + destruct k as [|k]; [cbn in Hk; lia|].
      destruct (IH k (upd st c a) idx' (dn ++ [c])) as (st' & idx2 & s & o & l1 & x & l2 & E & El & Et & R & O & Lk & P).
      { rewrite Ht', <- app_assoc. reflexivity. } { cbn in *; lia. } { exact Hd'. }
      { intros y Hy. rewrite upd_other by (intros ->; contradiction). apply Hh. now right. }
      exists st', idx2, s, o, (c :: l1), x, l2.
      assert (Hsub : forall y, In y l1 \/ y = x -> y <> c).
      { intros y Hy ->. apply Hni. rewrite El. apply in_app_iff. destruct Hy as [Hy| ->]; [now left|right; now left]. }
      split; [cbn [attempts]; rewrite Es, Ef; cbn [final orb]; replace (negb look) with false by (rewrite Eb2; reflexivity); exact E|].
      split; [cbn; rewrite El; reflexivity|].
      split; [rewrite Et, <- !app_assoc; reflexivity|].
      split. { intros y [<-|Hy].
        - split; [exact P3|]. rewrite O; [now rewrite upd_same| |].
          + intros Hc. exact (Hsub c (or_introl Hc) eq_refl).
          + intros Hc. exact (Hsub c (or_intror Hc) eq_refl).
        - destruct (R y Hy) as [R1 R2]. rewrite upd_other in R1 by (apply Hsub; auto). auto. }
      split. { intros y Hy1 Hy2. rewrite O; [apply upd_other; intros ->; apply Hy1; now left|intros Hc; apply Hy1; now right|exact Hy2]. }
      split; [congruence|].
      destruct s; [exact P|exact P|]. rewrite upd_other in P by (apply Hsub; auto). exact P.
Qed.

Lemma alloc_blks_ok n (live : N -> list ext) st idx : ok n -> NoDup chunks -> chunks <> [] ->
  (forall c, In c chunks -> holds (st c) (live c)) ->
  exists st' idx' s o l1 c l2, alloc_blks alc fre pok look chunks st idx n none = Some (st', idx', s, o) /\
    turn chunks idx = l1 ++ c :: l2 /\ turn chunks idx' = l2 ++ l1 ++ [c] /\
    (forall x, In x l1 -> refuses alc pok (st x) n /\ holds (st' x) (live x)) /\
    (forall x, ~ In x l1 -> x <> c -> st' x = st x) /\
    (look = false -> l1 = []) /\
    match s with
    | Success => o_chunk o = c /\ blocks (o_pieces o) = n /\ holds (st' c) (o_pieces o ++ live c)
    | Partial => pok = true /\ o_chunk o = c /\ 0 < blocks (o_pieces o) < n /\ holds (st' c) (o_pieces o ++ live c)
    | Fail => o = none /\ holds (st' c) (live c) /\ refuses alc pok (st c) n /\ (look = true -> l2 = [])
    end.
Proof.
  intros Hn Hd Hne Hh. unfold alloc_blks.
  apply (attempts_ok n live Hn (turn chunks idx) _ st idx []).
  - now rewrite app_nil_r.
  - rewrite turn_length. destruct chunks; [congruence|reflexivity].
  - now apply turn_nodup.
  - intros c Hc. apply Hh. now apply turn_perm in Hc.
Qed.
End S.

Section V.
Variable A : Type.
Variable alc : A -> N -> list ext -> option (A * status * list ext).
Variable fre : A -> list ext -> option A.
Variable look : bool.
Variable chunks : list N.
Variable ok : N -> Prop.
Variable holds : A -> list ext -> Prop.
Hypothesis L : lawful alc fre true ok holds.
Hypothesis Hd : NoDup chunks.
Hypothesis Hne : chunks <> [].

Lemma of_chunk_app c a b : of_chunk c (a ++ b) = of_chunk c a ++ of_chunk c b.
Proof. unfold of_chunk. now rewrite filter_app, map_app. Qed.
Lemma of_chunk_pair c l : of_chunk c (map (pair c) l) = l.
Proof. unfold of_chunk. induction l; [reflexivity|]. cbn. rewrite N.eqb_refl. cbn. now rewrite IHl. Qed.
Lemma of_chunk_pair_other c c' l : c' <> c -> of_chunk c' (map (pair c) l) = [].
Proof. intros H. unfold of_chunk. induction l; [reflexivity|]. cbn. destruct (N.eqb_spec c c'); [congruence|exact IHl]. Qed.
Lemma total_app a b : total (a ++ b) = total a + total b.
Proof. unfold total. now rewrite map_app, blocks_app. Qed.
Lemma total_pair (c : N) l : total (map (pair c) l) = blocks l.
Proof. unfold total. rewrite map_map. cbn. now rewrite map_id. Qed.

(** What holds after some rounds: [got] was taken, [live] was there before. *)
Definition taken (st : N -> A) (live : N -> list ext) (got : list (N * ext)) : Prop :=
  forall c, In c chunks -> holds (st c) (of_chunk c got ++ live c).

Lemma taken_more st st' live got c o l1 l2 idx n :
  taken st live got -> turn chunks idx = l1 ++ c :: l2 ->
  (forall x, In x l1 -> refuses alc true (st x) n /\ holds (st' x) (of_chunk x got ++ live x)) ->
  (forall x, ~ In x l1 -> x <> c -> st' x = st x) ->
  o_chunk o = c -> holds (st' c) (o_pieces o ++ (of_chunk c got ++ live c)) ->
  taken st' live (got ++ map (pair (o_chunk o)) (o_pieces o)).
Proof.
  intros Ht Et R O Ec Hc x Hx. rewrite of_chunk_app. rewrite Ec.
  destruct (N.eq_dec x c) as [->|Hn].
  - rewrite of_chunk_pair. eapply (la_perm _ _ _ _ _ L); [exact Hc|].
    rewrite !app_assoc. apply Permutation.Permutation_app_tail, Permutation.Permutation_app_comm.
  - rewrite of_chunk_pair_other, app_nil_r by congruence.
    destruct (in_dec N.eq_dec x l1) as [Hi|Hi]; [now apply R|]. rewrite O by assumption. now apply Ht.
Qed.

Lemma many_ok (live : N -> list ext) : forall fuel n st idx got, 0 < n -> (forall m, 0 < m <= n -> ok m) ->
  (N.to_nat n < fuel)%nat -> taken st live got ->
  match many alc fre true look chunks fuel st idx n got with
  | None => got = [] /\ (look = true -> forall c, In c chunks -> refuses alc true (st c) n)
  | Some (st', idx', s, got') =>
      match s with
      | Success => taken st' live got' /\ total got' = total got + n
      | Partial => False
      | Fail => exists x, taken st' live (got' ++ [x]) /\ total (got' ++ [x]) < total got + n
      end
  end.
Proof.
  induction fuel as [|f IH]; intros n st idx got Hn Hok Hf Ht; [lia|]. cbn [many].
  destruct (alloc_blks_ok A alc fre true look chunks ok holds L n (fun c => of_chunk c got ++ live c) st idx
              (Hok n ltac:(lia)) Hd Hne Ht) as (st' & idx' & s & o & l1 & c & l2 & E & Et & _ & R & O & Lk & P).
  rewrite E. destruct s.
  - destruct P as (P1 & P2 & P3). rewrite P2. rewrite (proj2 (N.leb_le n n)) by lia.
    split; [eapply taken_more; eauto|]. rewrite total_app, total_pair. lia.
  - destruct P as (_ & P1 & P2 & P3). destruct (N.leb_spec n (blocks (o_pieces o))) as [Hl|Hl]; [lia|].
    assert (Ht' : taken st' live (got ++ map (pair (o_chunk o)) (o_pieces o))) by (eapply taken_more; eauto).
    assert (Hg : got ++ map (pair (o_chunk o)) (o_pieces o) <> []).
    { intros H. apply app_eq_nil in H as [_ H]. apply map_eq_nil in H. rewrite H in P2. cbn in P2. lia. }
    specialize (IH (n - blocks (o_pieces o)) st' idx' _ ltac:(lia) ltac:(intros m Hm; apply Hok; lia) ltac:(lia) Ht').
    rewrite total_app, total_pair in IH.
    destruct (many alc fre true look chunks f st' idx' (n - blocks (o_pieces o)) _) as [[[[st2 i2] s2] g2]|].
    + destruct s2; [|exact IH|].
      * destruct IH as [I1 I2]. split; [exact I1|lia].
      * destruct IH as (x & I1 & I2). exists x. split; [exact I1|lia].
    + destruct IH as [I1 _]. contradiction.
  - destruct P as (_ & P1 & P2 & P3).
    destruct got as [|g got0] eqn:Eg.
    + split; [reflexivity|]. intros Hl x Hx.
      apply turn_perm with (idx := idx) in Hx. rewrite Et, (P3 Hl) in Hx. apply in_app_iff in Hx.
      destruct Hx as [Hx|[<-|[]]]; [now apply R|exact P2].
    + rewrite <- Eg in *. assert (Hgn : got <> []) by (rewrite Eg; discriminate).
      destruct got as [|y got']; [congruence|].
      exists (last (y :: got') y). rewrite <- app_removelast_last by assumption. split; [|lia].
      intros x Hx. destruct (N.eq_dec x c) as [->|Hnc]; [exact P1|].
      destruct (in_dec N.eq_dec x l1) as [Hi|Hi]; [now apply R|]. rewrite O by assumption. now apply Ht.
Qed.
End V.
