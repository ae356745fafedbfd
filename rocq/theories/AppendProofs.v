(** Proofs about the append allocator model. *)
From Coq Require Import NArith ZArith List Lia Bool Permutation.
From Coq Require Import ZifyBool ZifyNat ZifyN.
From Verif Require Import Base ExtSpec ExtFacts AppendModel AppendSpec.
Import ListNotations.
Local Open Scope N_scope.

Definition bounded (s : ast) : Prop := a_last s <= a_total s /\ a_total s < 4294967296.

Lemma avail_small : forall s, bounded s -> available_blks s = a_total s - a_last s.
Proof.
  intros s [H1 H2]. unfold available_blks, w32.
  replace (a_total s + 4294967296 - a_last s) with ((a_total s - a_last s) + 1 * 4294967296) by lia.
  rewrite N.mod_add by lia. apply N.mod_small. lia.
Qed.

Lemma alloc_cases : forall s n r, bounded s ->
  (alloc s n r = (s, SpaceFull) /\ a_total s - a_last s - match r with Some k => k | None => 0 end < n) \/
  (alloc s n r = (s, AllocFailed) /\ 65535 < n) \/
  (alloc s n r = (Ast (a_total s) (a_last s + n) (a_commit s) (a_freeable s) (a_dirty s) (a_disk s),
                  AllocOk (a_last s) n) /\ a_last s + n <= a_total s /\
   n <= a_total s - a_last s - match r with Some k => k | None => 0 end).
Proof.
  intros s n r Hb. unfold alloc, alloc_check, avail_after_reserve. rewrite (avail_small s Hb).
  destruct Hb as [H1 H2]. cbv zeta.
  assert (Hr : (match r with Some r0 => if r0 <? a_total s - a_last s then a_total s - a_last s - r0 else 0
                | None => a_total s - a_last s end) = a_total s - a_last s - match r with Some k => k | None => 0 end).
  { destruct r as [k|]; [|lia]. destruct (N.ltb_spec k (a_total s - a_last s)); lia. }
  rewrite Hr. set (av := a_total s - a_last s - _) in *.
  destruct (N.ltb_spec av n) as [Ha|Ha]; [left; auto|].
  destruct (N.ltb_spec 65535 n) as [Hb|Hb]; [right; left; auto|].
  right. right. assert (av <= a_total s - a_last s) by (subst av; lia).
  unfold alloc_bump, w32. rewrite N.mod_small by lia. split; [reflexivity|]. split; [lia|auto].
Qed.

Lemma chain_app : forall l1 l2 a b c, chain a l1 b -> chain b l2 c -> chain a (l1 ++ l2) c.
Proof.
  induction l1 as [|x l1 IH]; intros l2 a b c H1 H2; cbn [chain app] in *; [now subst|].
  destruct H1 as [Hx H1]. split; [exact Hx|]. eapply IH; eauto.
Qed.

Lemma astep_spec : forall s o s' l, bounded s -> astep s o = (s', l) ->
  bounded s' /\ a_total s' = a_total s /\ chain (a_last s) l (a_last s').
Proof.
  intros s o s' l Hb H. destruct o as [n r|len|x|]; cbn [astep] in H.
  - destruct (alloc_cases s n r Hb) as [[E _]|[[E _]|[E [Hle _]]]]; rewrite E in H; injection H as <- <-.
    + ands; auto; reflexivity.
    + ands; auto; reflexivity.
    + destruct Hb. unfold bounded. cbn. ands; auto.
  - injection H as <- <-. unfold bounded in *. cbn. ands; auto; lia.
  - injection H as <- <-. unfold reserve_on_disk. destruct (_ <=? _); unfold bounded in *; cbn; ands; auto; lia.
  - injection H as <- <-. unfold cp_flush. destruct (a_dirty s); unfold bounded in *; cbn; ands; auto; lia.
Qed.

Lemma arun_spec : forall ops s s' l, bounded s -> arun s ops = (s', l) ->
  bounded s' /\ a_total s' = a_total s /\ chain (a_last s) l (a_last s').
Proof.
  induction ops as [|o ops IH]; intros s s' l Hb H; cbn [arun] in H.
  - injection H as <- <-. ands; auto. reflexivity.
  - destruct (astep s o) as [s1 l1] eqn:E1. destruct (arun s1 ops) as [s2 l2] eqn:E2.
    injection H as <- <-. destruct (astep_spec _ _ _ _ Hb E1) as [A [B C]].
    destruct (IH _ _ _ A E2) as [A' [B' C']]. ands; auto; [congruence|]. eapply chain_app; eauto.
Qed.

Lemma c07_seq_lemma : forall total ops s l, total < 4294967296 -> arun (fresh_alloc total) ops = (s, l) ->
  chain 0 l (a_last s) /\ a_last s <= total.
Proof.
  intros total ops s l Ht H. apply arun_spec in H; [|unfold bounded; cbn; lia].
  destruct H as [[A1 A2] [B C]]. cbn in *. split; [exact C|]. lia.
Qed.

Lemma c07_refuse_lemma : forall total ops s l n r, total < 4294967296 -> n <= 65535 ->
  arun (fresh_alloc total) ops = (s, l) ->
  if n <=? total - a_last s - match r with Some k => k | None => 0 end
  then exists s', alloc s n r = (s', AllocOk (a_last s) n)
  else alloc s n r = (s, SpaceFull).
Proof.
  intros total ops s l n r Ht Hn H. apply arun_spec in H; [|unfold bounded; cbn; lia].
  destruct H as [Hb [B _]]. cbn in B.
  destruct (alloc_cases s n r Hb) as [[E H1]|[[E H1]|[E H1]]]; rewrite ?B in H1.
  - destruct (N.leb_spec n (total - a_last s - match r with Some k => k | None => 0 end)); [lia|exact E].
  - lia.
  - destruct (N.leb_spec n (total - a_last s - match r with Some k => k | None => 0 end)); [|lia]. eauto.
Qed.

(** ** Concurrency *)
Definition psum (l : list (nat * N)) : N := fold_right (fun x a => snd x + a) 0 l.

Lemma take_psum : forall t l n r, take t l = Some (n, r) -> psum l = n + psum r.
Proof.
  induction l as [|[t' m] l IH]; cbn [take]; intros n r H; [discriminate|].
  destruct (Nat.eqb t t').
  - injection H as <- <-. reflexivity.
  - destruct (take t l) as [[k r']|]; [|discriminate]. injection H as <- <-.
    cbn [psum fold_right snd]. fold (psum l) (psum r'). rewrite (IH _ _ eq_refl). lia.
Qed.

(** Requests made so far. *)
Definition requested (l : list cop) : N :=
  fold_right (fun o a => match o with Check _ n _ => n + a | Bump _ => a end) 0 l.

Lemma crun_spec : forall l s, a_last (c_ast s) + psum (c_passed s) + requested l < 4294967296 ->
  chain 0 (map snd (c_out s)) (a_last (c_ast s)) ->
  chain 0 (map snd (c_out (crun s l))) (a_last (c_ast (crun s l))).
Proof.
  induction l as [|o l IH]; intros s Hb Hc; [exact Hc|].
  cbn [crun fold_left]. apply IH; clear IH; destruct o as [t n r|t]; cbn [requested fold_right] in Hb;
    fold (requested l) in Hb; cbn [cstep].
  - destruct (alloc_check (c_ast s) n r); cbn; [lia|]. fold (psum (c_passed s)). lia.
  - destruct (take t (c_passed s)) as [[n rest]|] eqn:Ht; [|lia].
    apply take_psum in Ht. unfold alloc_bump. cbn [c_ast c_passed a_last].
    unfold w32. rewrite N.mod_small by lia. lia.
  - destruct (alloc_check (c_ast s) n r); exact Hc.
  - destruct (take t (c_passed s)) as [[n rest]|] eqn:Ht; [|exact Hc].
    apply take_psum in Ht. unfold alloc_bump. cbn [c_ast c_out a_last]. rewrite map_app.
    unfold w32. rewrite N.mod_small by lia. eapply chain_app; [exact Hc|]. cbn. auto.
Qed.

Lemma c07_conc_lemma : forall total l, requested l < 4294967296 ->
  let s := crun (Cst (fresh_alloc total) [] []) l in chain 0 (map snd (c_out s)) (a_last (c_ast s)).
Proof. intros total l H s. apply crun_spec; [cbn; lia|reflexivity]. Qed.

Lemma c07_race_lemma : exists total l, total < 4294967296 /\
  c_out (crun (Cst (fresh_alloc total) [] []) l) = [(1%nat, (0, 6)); (2%nat, (6, 6))] /\ total = 10.
Proof.
  exists 10, [Check 1 6 None; Check 2 6 None; Bump 1; Bump 2].
  split; [lia|]. split; vm_compute; reflexivity.
Qed.

Lemma c07_after_race_lemma : exists total l, total = 10 /\
  In (3%nat, (12, 65535)) (c_out (crun (Cst (fresh_alloc total) [] []) l)).
Proof.
  exists 10, [Check 1 6 None; Check 2 6 None; Bump 1; Bump 2; Check 3 65535 None; Bump 3].
  split; [reflexivity|]. vm_compute. auto.
Qed.

(** ** Recovery *)
Lemma replay_spec : forall l s, (a_commit s <= a_last s) ->
  replay s l = Ast (a_total s) (max_end (a_last s) l) (max_end (a_commit s) l) (a_freeable s)
                   (a_dirty s || (a_commit s <? max_end (a_commit s) l)) (a_disk s).
Proof.
  assert (Hm : forall l m k, max_end (N.max m k) l = N.max (max_end m l) k).
  { induction l as [|x l IH]; intros m k; cbn [max_end fold_right]; [reflexivity|].
    fold (max_end (N.max m k) l) (max_end m l). rewrite IH. lia. }
  assert (Hge : forall l m, m <= max_end m l).
  { induction l as [|x l IH]; intros m; cbn [max_end fold_right]; [lia|].
    fold (max_end m l). specialize (IH m). lia. }
  induction l as [|x l IH]; intros s Hcl.
  - cbn. rewrite N.ltb_irrefl, orb_false_r. destruct s; reflexivity.
  - cbn [replay fold_left]. fold (replay (replay1 s x) l).
    assert (H1 : replay1 s x = Ast (a_total s) (N.max (fst x + snd x) (a_last s)) (N.max (fst x + snd x) (a_commit s))
       (a_freeable s) (a_dirty s || (a_commit s <? fst x + snd x)) (a_disk s)).
    { unfold replay1, reserve_on_disk, reserve_on_cache. destruct s as [t la co fr di dk]. cbn [a_last a_commit] in *.
      destruct (N.leb_spec (fst x + snd x) la); cbn [a_last a_commit a_total a_freeable a_dirty a_disk];
      destruct (N.leb_spec (fst x + snd x) co); cbn [a_last a_commit a_total a_freeable a_dirty a_disk];
      try lia; destruct (N.ltb_spec co (fst x + snd x)); try lia;
      rewrite ?orb_true_r, ?orb_false_r; f_equal; lia. }
    rewrite H1, IH; cbn [a_last a_commit a_total a_freeable a_dirty a_disk]; [|lia].
    cbn [max_end fold_right]. fold (max_end (a_last s) l) (max_end (a_commit s) l).
    rewrite (N.max_comm (fst x + snd x) (a_last s)), (N.max_comm (fst x + snd x) (a_commit s)), !Hm.
    rewrite (N.max_comm (max_end (a_last s) l)), (N.max_comm (max_end (a_commit s) l)).
    f_equal. rewrite <- orb_assoc. f_equal. pose proof (Hge l (a_commit s)).
    destruct (N.ltb_spec (a_commit s) (fst x + snd x));
    destruct (N.ltb_spec (a_commit s) (N.max (fst x + snd x) (max_end (a_commit s) l)));
    destruct (N.ltb_spec (N.max (a_commit s) (fst x + snd x)) (N.max (fst x + snd x) (max_end (a_commit s) l)));
    cbn [orb]; try reflexivity; lia.
Qed.

Lemma max_end_in : forall l m x, In x l -> fst x + snd x <= max_end m l.
Proof.
  induction l as [|y l IH]; intros m x H; [contradiction|]. cbn [max_end fold_right]. fold (max_end m l).
  destruct H as [->|H]; [lia|]. specialize (IH m x H). lia.
Qed.
Lemma max_end_ge : forall l m, m <= max_end m l.
Proof.
  induction l as [|x l IH]; intros m; cbn [max_end fold_right]; [lia|]. fold (max_end m l). specialize (IH m). lia.
Qed.
Lemma max_end_le : forall l m k, m <= k -> (forall x, In x l -> fst x + snd x <= k) -> max_end m l <= k.
Proof.
  induction l as [|x l IH]; intros m k Hm H; cbn [max_end fold_right]; [lia|]. fold (max_end m l).
  assert (fst x + snd x <= k) by (apply H; now left).
  assert (max_end m l <= k) by (apply IH; [assumption|]; intros y Hy; apply H; now right). lia.
Qed.
Lemma max_end_set : forall l l' m, (forall x, In x l <-> In x l') -> max_end m l = max_end m l'.
Proof.
  intros l l' m H. apply N.le_antisymm; apply max_end_le; try apply max_end_ge;
    intros x Hx; apply max_end_in; now apply H.
Qed.

Lemma c08_order_lemma : forall s l l', (forall x, In x l <-> In x l') ->
  replay (restart s) l = replay (restart s) l'.
Proof.
  intros s l l' H.
  assert (Hc : a_commit (restart s) <= a_last (restart s)).
  { unfold restart. destruct (a_disk s) as [[c f]|]; cbn; lia. }
  rewrite !replay_spec by exact Hc. now rewrite !(max_end_set l l' _ H).
Qed.

Lemma c08_point_lemma : forall s l,
  a_last (replay (restart s) l) = max_end (match a_disk s with Some (c, _) => c | None => 0 end) l.
Proof.
  intros s l. rewrite replay_spec.
  - cbn. unfold restart. destruct (a_disk s) as [[c f]|]; reflexivity.
  - unfold restart. destruct (a_disk s) as [[c f]|]; cbn; lia.
Qed.

Lemma chain_ge : forall l a b x, chain a l b -> In x l -> a <= fst x /\ fst x + snd x <= b.
Proof.
  assert (Hle : forall l a b, chain a l b -> a <= b).
  { induction l as [|y l IH]; cbn [chain]; intros a b H; [lia|]. destruct H as [H1 H2]. specialize (IH _ _ H2). lia. }
  induction l as [|y l IH]; cbn [chain]; intros a b x H Hin; [contradiction|].
  destruct H as [H1 H2]. destruct Hin as [->|Hin].
  - specialize (Hle _ _ _ H2). lia.
  - destruct (IH _ _ _ H2 Hin). lia.
Qed.

Lemma c08_no_overlap_lemma : forall s j ops s' l x y, a_total s < 4294967296 ->
  a_last (replay (restart s) j) <= a_total s ->
  arun (replay (restart s) j) ops = (s', l) -> In x j -> In y l -> ~ overlap x y.
Proof.
  intros s j ops s' l x y Ht Hcap H Hx Hy Ho. rewrite overlap_iff in Ho.
  assert (Htot : a_total (replay (restart s) j) = a_total s).
  { rewrite replay_spec; unfold restart; destruct (a_disk s) as [[c f]|]; cbn; lia. }
  apply arun_spec in H; [|unfold bounded; lia]. destruct H as [_ [_ Hc]].
  destruct (chain_ge _ _ _ _ Hc Hy) as [Hy1 _].
  rewrite c08_point_lemma in Hy1. pose proof (max_end_in j (match a_disk s with Some (c, _) => c | None => 0 end) x Hx). lia.
Qed.

(** ** Histories with crashes *)
Definition disk_commit (a : ast) : N := match a_disk a with Some (c, _) => c | None => 0 end.

Definition hinv (total : N) (s : hist) : Prop :=
  let a := h_ast s in
  a_total a = total /\ a_last a <= total /\ a_commit a <= a_last a /\ disk_commit a <= a_commit a /\
  (a_dirty a = false -> a_commit a = disk_commit a) /\
  (forall x, In x (h_out s) -> fst x + snd x <= a_last a) /\
  (forall x, In x (h_recent s) -> fst x + snd x <= a_commit a) /\
  (forall x, In x (h_old s) -> fst x + snd x <= disk_commit a) /\
  (forall b, (holders b (h_out s ++ h_recent s ++ h_old s) <= 1)%nat).

Lemma holders_none : forall l b, (forall x, In x l -> inside b x = false) -> holders b l = 0%nat.
Proof.
  induction l as [|x l IH]; intros b H; [reflexivity|]. rewrite holders_cons, (H x (or_introl eq_refl)).
  rewrite IH; [reflexivity|]. intros y Hy. apply H. now right.
Qed.

Lemma remove_ext_perm : forall l x r, remove_ext x l = Some r -> Permutation l (x :: r).
Proof.
  induction l as [|y l IH]; intros x r H; cbn [remove_ext] in H; [discriminate|].
  destruct ((fst x =? fst y) && (snd x =? snd y)) eqn:E.
  - injection H as <-. apply andb_true_iff in E. destruct E as [E1 E2].
    apply N.eqb_eq in E1, E2. destruct x, y; cbn in *; subst. reflexivity.
  - destruct (remove_ext x l) as [r'|] eqn:E'; [|discriminate]. injection H as <-.
    rewrite (IH _ _ E'). constructor.
Qed.

Lemma hstep_inv : forall total s o s', total < 4294967296 -> hinv total s -> hstep s o s' -> hinv total s'.
Proof.
  intros total s o s' Ht Hinv Hst. destruct Hinv as [I1 [I2 [I3 [I4 [I5 [I6 [I7 [I8 I9]]]]]]]].
  assert (Hb : bounded (h_ast s)) by (unfold bounded; lia).
  destruct Hst as [s n r a st len E|s n r a E|s x rest E|s len|s|s j [J1 J2]];
    unfold hinv; cbn [h_ast h_out h_recent h_old].
  - destruct (alloc_cases (h_ast s) n r Hb) as [[E' _]|[[E' _]|[E' [Hle _]]]]; rewrite E' in E; try discriminate.
    injection E as <- <- <-. unfold disk_commit in *. cbn [a_total a_last a_commit a_dirty a_disk].
    ands; auto; try lia.
    + intros x [<-|Hx]; cbn; [lia|]. specialize (I6 x Hx). lia.
    + intros b. cbn [app]. rewrite holders_cons. specialize (I9 b).
      destruct (inside b (a_last (h_ast s), n)) eqn:Ei; [|lia].
      rewrite holders_none; [lia|]. intros x Hx. unfold inside in *. cbn [fst snd] in *.
      rewrite !in_app_iff in Hx.
      assert (fst x + snd x <= a_last (h_ast s)).
      { destruct Hx as [Hx|[Hx|Hx]]; [now apply I6|apply I7 in Hx; lia|apply I8 in Hx; lia]. }
      lia.
  - assert (Ea : a = h_ast s).
    { destruct (alloc_cases (h_ast s) n r Hb) as [[E' _]|[[E' _]|[E' _]]]; rewrite E' in E;
        destruct E as [E|E]; congruence. }
    subst a. ands; auto.
  - pose proof (remove_ext_perm _ _ _ E) as Hp.
    assert (Hx : fst x + snd x <= a_last (h_ast s)) by (apply I6; rewrite Hp; now left).
    assert (Hfin : forall b, (holders b (rest ++ (x :: h_recent s) ++ h_old s) <= 1)%nat).
    { intros b. specialize (I9 b). rewrite !holders_app in *. rewrite (holders_perm b _ _ Hp) in I9.
      rewrite holders_cons in *. lia. }
    assert (Hrest : forall y, In y rest -> fst y + snd y <= a_last (h_ast s)).
    { intros y Hy. apply I6. rewrite Hp. now right. }
    unfold reserve_on_disk. destruct (N.leb_spec (fst x + snd x) (a_commit (h_ast s)));
      unfold disk_commit in *; cbn [a_total a_last a_commit a_dirty a_disk]; ands; auto; try lia; try discriminate.
    + intros y [<-|Hy]; [lia|]. now apply I7.
    + intros y [<-|Hy]; [lia|]. apply I7 in Hy. lia.
  - unfold free, disk_commit in *. cbn [a_total a_last a_commit a_dirty a_disk]. ands; auto; discriminate.
  - unfold cp_flush. destruct (a_dirty (h_ast s)) eqn:Ed;
      unfold disk_commit in *; cbn [a_total a_last a_commit a_dirty a_disk app]; ands; auto; try lia; try contradiction.
    + intros y Hy. rewrite in_app_iff in Hy. destruct Hy as [Hy|Hy]; [now apply I7|]. apply I8 in Hy. lia.
    + intros y Hy. rewrite in_app_iff in Hy. destruct Hy as [Hy|Hy]; [|now apply I8].
      apply I7 in Hy. rewrite I5 in Hy by reflexivity. exact Hy.
  - assert (Hrc : a_commit (restart (h_ast s)) = disk_commit (h_ast s) /\ a_last (restart (h_ast s)) = disk_commit (h_ast s) /\
       a_disk (restart (h_ast s)) = a_disk (h_ast s) /\ a_total (restart (h_ast s)) = total /\
       a_dirty (restart (h_ast s)) = false).
    { unfold restart, disk_commit. destruct (a_disk (h_ast s)) as [[c f]|]; cbn; auto. }
    destruct Hrc as [R1 [R2 [R3 [R4 R5]]]].
    rewrite replay_spec by lia. cbn [a_total a_last a_commit a_dirty a_disk]. rewrite R1, R2, R3, R4, R5.
    cbn [orb].
    assert (Hend : forall y, In y j -> fst y + snd y <= a_commit (h_ast s)).
    { intros y Hy. apply J2 in Hy. rewrite in_app_iff in Hy. destruct Hy as [Hy|Hy]; [now apply I7|apply I8 in Hy; lia]. }
    assert (Hle : max_end (disk_commit (h_ast s)) j <= a_commit (h_ast s)) by (apply max_end_le; auto).
    pose proof (max_end_ge j (disk_commit (h_ast s))) as Hge.
    assert (Hd : forall t la c f d, disk_commit (Ast t la c f d (a_disk (h_ast s))) = disk_commit (h_ast s)) by reflexivity.
    rewrite !Hd. ands; auto; try lia; try contradiction.
    + intros y Hy. apply max_end_in. now apply J1.
    + intros b. specialize (I9 b). rewrite !holders_app in *. rewrite holders_nil. lia.
Qed.

Lemma hreach_inv : forall total s, total < 4294967296 -> hreach total s -> hinv total s.
Proof.
  intros total s Ht H. induction H as [|s o s' H IH Hs].
  - unfold hinv. cbn. ands; auto; try lia; try contradiction.
  - eapply hstep_inv; eauto.
Qed.

Lemma c08_history_lemma : forall total s, total < 4294967296 -> hreach total s ->
  (forall b, (holders b (h_out s ++ h_recent s ++ h_old s) <= 1)%nat) /\
  (forall x, In x (h_out s ++ h_recent s ++ h_old s) -> fst x + snd x <= total).
Proof.
  intros total s Ht H. destruct (hreach_inv total s Ht H) as [I1 [I2 [I3 [I4 [I5 [I6 [I7 [I8 I9]]]]]]]].
  split; [exact I9|]. intros x Hx. rewrite !in_app_iff in Hx.
  destruct Hx as [Hx|[Hx|Hx]]; [apply I6 in Hx|apply I7 in Hx|apply I8 in Hx]; lia.
Qed.
