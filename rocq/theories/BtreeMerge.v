(** Merges of children keep the entries. *)
From Coq Require Import ZArith NArith List Bool Lia.
From Coq Require Import ZifyBool ZifyNat ZifyN.
From Verif Require Import Base BtNodeModel BtNodeSpec BtNodeProofs BtreeModel BtreeInv.
Import ListNotations.

Lemma skipn_add : forall (T : Type) a b (l : list T), skipn a (skipn b l) = skipn (b + a) l.
Proof.
  intros T a b. induction b as [|b IH]; intros l; [reflexivity|].
  destruct l; [now rewrite !skipn_nil|]. cbn. apply IH.
Qed.

Lemma nil_dec : forall (T : Type) (l : list T), l = [] \/ l <> [].
Proof. intros T [|x l]; [now left|right; discriminate]. Qed.

(** The sizes a merge relies on: no entry is empty, the ideal fill is below the
    node size, at most three nodes are merged, and merges are not forced. *)
Record cfg_ok (c : cfg) : Prop := {
  ok_lsz : forall k v, (0 < c_lsz c k v)%N;
  ok_isz : forall k, (0 < c_isz c k)%N;
  ok_ideal : (0 < c_ideal c < c_data c)%N;
  ok_data : (c_data c < 2 ^ 31)%N;
  ok_merge : (c_max_merge c <= 3)%nat;
  ok_rebal : c_rebal c = false
}.

Section Redistribute.
Variable c : cfg.
Context {A B : Type}.
Variable sz : Z * A -> N.
Hypothesis Hsz : forall p, (0 < sz p)%N.
Hypothesis Hok : cfg_ok c.

Notation seg := (list (Z * A) * option B)%type.
Definition conc (l : list seg) : list (Z * A) := concat (map fst l).

Lemma conc_app : forall a b, conc (a ++ b) = conc a ++ conc b.
Proof. intros. unfold conc. now rewrite map_app, concat_app. Qed.
Lemma conc_cons : forall o r, conc (o :: r) = fst o ++ conc r.
Proof. reflexivity. Qed.
Lemma conc_one : forall o, conc [o] = fst o.
Proof. intros. cbn. apply app_nil_r. Qed.

Lemma total_app : forall a b, total sz (a ++ b) = (total sz a + total sz b)%N.
Proof. induction a as [|p a IH]; intros b; cbn; [reflexivity|]. rewrite IH. lia. Qed.

Lemma fit_le : forall es room, (fit sz es room <= length es)%nat.
Proof.
  induction es as [|p es IH]; intros room; cbn; [lia|].
  destruct (_ <=? _)%N; [|lia]. specialize (IH (room - sz p)%N). lia.
Qed.

Lemma fit_mono : forall es n room, (n <= length es)%nat ->
  (total sz (firstn n es) <= room)%N -> (n <= fit sz es room)%nat.
Proof.
  induction es as [|p es IH]; intros n room HL HT; cbn in *; [lia|].
  destruct n as [|n]; [lia|]. cbn in HT.
  destruct (N.leb_spec (sz p) room); [|lia].
  specialize (IH n (room - sz p)%N ltac:(lia) ltac:(lia)). lia.
Qed.

Lemma fit_total : forall es room, (total sz (firstn (fit sz es room) es) <= room)%N.
Proof.
  induction es as [|p es IH]; intros room; cbn; [lia|].
  destruct (N.leb_spec (sz p) room); cbn; [|lia].
  specialize (IH (room - sz p)%N). lia.
Qed.

Lemma fit_zero : forall p es room, (fit sz (p :: es) room = 0)%nat -> (room < sz p)%N.
Proof. intros p es room H. cbn in H. destruct (N.leb_spec (sz p) room); [discriminate|assumption]. Qed.

Lemma fit_big : forall p es room, (room < sz p)%N -> fit sz (p :: es) room = 0%nat.
Proof. intros p es room H. cbn. destruct (N.leb_spec (sz p) room); [lia|reflexivity]. Qed.

(** *** What the leftmost node takes *)

Definition edge_after (d : option B) (l : list seg) : option B :=
  fold_left (fun e o => match snd o with Some x => Some x | None => e end) l d.

Lemma left_src_ok : forall (olds : list seg) avail takes rest j,
  left_src sz olds avail = (takes, (rest, j)) ->
  exists pre, olds = pre ++ rest /\
    match rest with
    | [] => j = 0%nat /\ takes = map (fun o => length (fst o)) pre /\
            (total sz (conc pre) <= avail)%N
    | o :: _ => (j < length (fst o))%nat /\
            takes = map (fun o => length (fst o)) pre ++ [j] /\
            (total sz (conc pre ++ firstn j (fst o)) <= avail)%N
    end.
Proof.
  induction olds as [|o r IH]; intros avail takes rest j H; cbn in H.
  - injection H as <- <- <-. exists []. repeat split. cbn. lia.
  - pose proof (fit_le (fst o) avail) as HL. pose proof (fit_total (fst o) avail) as HT.
    destruct (Nat.eqb_spec (fit sz (fst o) avail) (length (fst o))) as [E|E].
    + destruct (left_src sz r (avail - total sz (fst o))) as [l cur] eqn:ER.
      injection H as <- ->. destruct (IH _ _ _ _ ER) as [pre [-> HP]].
      rewrite E, firstn_all in HT.
      exists (o :: pre). split; [reflexivity|]. rewrite E. destruct rest as [|o' rest].
      * destruct HP as [-> [-> HP]]. split; [reflexivity|]. split; [reflexivity|].
        rewrite conc_cons, total_app. lia.
      * destruct HP as [H1 [-> HP]]. split; [assumption|]. split; [reflexivity|].
        rewrite conc_cons, <- app_assoc, total_app. lia.
    + injection H as <- <- <-. exists []. split; [reflexivity|]. split; [lia|].
      split; [reflexivity|]. cbn. exact HT.
Qed.

Lemma copy_entries_all : forall (dst src : seg),
  (total sz (fst dst) + total sz (fst src) <= c_data c)%N ->
  copy_entries c sz dst src (length (fst src)) =
  (fst dst ++ fst src, match snd src with Some e => Some e | None => snd dst end).
Proof.
  intros dst src H. unfold copy_entries.
  assert (HF : fit sz (fst src) (c_data c - total sz (fst dst)) = length (fst src)).
  { pose proof (fit_le (fst src) (c_data c - total sz (fst dst))).
    pose proof (fit_mono (fst src) (length (fst src)) (c_data c - total sz (fst dst)) ltac:(lia)).
    rewrite firstn_all in H1. specialize (H1 ltac:(lia)). lia. }
  rewrite HF, Nat.min_id, firstn_all, Nat.eqb_refl. reflexivity.
Qed.

Lemma copy_entries_part : forall (dst src : seg) j,
  (j < length (fst src))%nat ->
  (total sz (fst dst) + total sz (firstn j (fst src)) <= c_data c)%N ->
  copy_entries c sz dst src j = (fst dst ++ firstn j (fst src), snd dst).
Proof.
  intros dst src j HJ H. unfold copy_entries.
  assert (HF : (j <= fit sz (fst src) (c_data c - total sz (fst dst)))%nat)
    by (apply fit_mono; lia).
  rewrite Nat.min_l by assumption.
  destruct (Nat.eqb_spec j (length (fst src))); [lia|]. destruct (snd src); reflexivity.
Qed.

Lemma copy_pre : forall (pre : list seg) (dst : seg), (total sz (fst dst) + total sz (conc pre) <= c_data c)%N ->
  fold_left (fun d p => copy_entries c sz d (fst p) (snd p))
    (combine pre (map (fun o => length (fst o)) pre)) dst =
  (fst dst ++ conc pre, edge_after (snd dst) pre).
Proof.
  induction pre as [|o pre IH]; intros dst H.
  - cbn. rewrite app_nil_r. now destruct dst.
  - rewrite conc_cons, total_app in H. cbn [map combine fold_left fst snd].
    rewrite copy_entries_all by lia. rewrite IH by (cbn [fst]; rewrite total_app; lia).
    cbn [fst snd]. rewrite conc_cons, app_assoc. f_equal.
Qed.

Lemma combine_app_l : forall (X Y : Type) (a b : list X) (t : list Y),
  length a = length t -> combine (a ++ b) t = combine a t.
Proof.
  induction a as [|x a IH]; intros b [|y t] H; cbn in *; try lia.
  - now destruct b.
  - f_equal. apply IH. lia.
Qed.

Lemma combine_app2 : forall (X Y : Type) (a b : list X) (s t : list Y),
  length a = length s -> combine (a ++ b) (s ++ t) = combine a s ++ combine b t.
Proof.
  induction a as [|x a IH]; intros b [|y s] t H; cbn in *; try lia; [reflexivity|].
  f_equal. apply IH. lia.
Qed.

(** *** The copy loop *)

(** With one node too many and an entry above the balanced size the loop
    allocates for ever. *)
Lemma copy_stuck : forall fuel num balanced (o : seg) r j rnews tsz tent p,
  nth_error (fst o) j = Some p -> (balanced < sz p)%N ->
  (num <= N.of_nat (length rnews))%N -> (0 < num)%N ->
  (0 < tent)%N -> (balanced < 2 ^ 32)%N ->
  copy_loop c sz fuel num balanced (o :: r) j rnews 0 tsz tent = Stop NoFuel.
Proof.
  induction fuel as [|fuel IH]; intros num balanced o r j rnews tsz tent p
    HP HB HN H0 HT H32; cbn [copy_loop]; [reflexivity|].
  rewrite Z.eqb_refl, (proj2 (N.ltb_lt 0 tent)) by assumption. cbn [andb].
  unfold copy_size. cbn [fst snd total app].
  assert (Hj : (j < length (fst o))%nat) by (apply nth_error_Some; congruence).
  assert (HS : exists tl, skipn j (fst o) = p :: tl).
  { apply nth_error_split in HP. destruct HP as [a [b [-> <-]]].
    exists b. apply skipn_len_app. }
  destruct HS as [tl HS]. rewrite HS.
  rewrite Z.mod_small by lia. rewrite N2Z.id.
  rewrite fit_big by lia. cbn [firstn total].
  destruct (Nat.eqb_spec (length (fst o)) (j + 0)); [lia|].
  replace (N.of_nat (length (([], match snd o with
     | Some e => if (j + 0 =? length (fst o))%nat then Some e else None
     | None => None end) :: rnews)) =? num - 1)%N with false
    by (symmetry; cbn [length]; lia).
  cbn [length].
  replace (N.of_nat (S (length rnews)) =? num - 1)%N with false by (symmetry; lia).
  cbn [andb].
  rewrite Nat.add_0_r. eapply IH; try eassumption; cbn [length]; lia.
Qed.

Definition edges_ok (l : list seg) : Prop := Forall (fun o => snd o = None) (removelast l).

(** Entries the cursor has not passed. *)
Definition left_over (rest : list seg) (j : nat) : list (Z * A) :=
  match rest with [] => [] | o :: r => skipn j (fst o) ++ conc r end.

Definition cinv (num balanced : N) (rest : list seg) (j : nat) (rnews : list seg)
    (avail : Z) (tsz tent : N) : Prop :=
  tent = N.of_nat (length (left_over rest j)) /\
  (tsz < c_data c)%N /\
  match rnews with
  | [] => avail = 0%Z /\ left_over rest j <> []
  | cur :: rn =>
      Forall (fun o => fst o <> []) rn /\
      (fst cur = [] -> left_over rest j <> [] /\ avail <> 0%Z /\
         (N.of_nat (length rnews) <> num - 1 -> avail = Z.of_N balanced)%N)
  end.

Lemma copy_loop_ok : forall fuel num balanced rest j rnews avail tsz tent out,
  (0 < num <= 2)%N -> (0 < balanced <= c_ideal c)%N ->
  rest <> [] -> edges_ok rest ->
  (forall o r, rest = o :: r -> (j <= length (fst o))%nat) ->
  Forall (fun o => snd o = None) rnews ->
  cinv num balanced rest j rnews avail tsz tent ->
  copy_loop c sz fuel num balanced rest j rnews avail tsz tent = Ok out ->
  exists hd tl, out = hd :: tl /\
    conc (rev out) = conc (rev rnews) ++ left_over rest j /\
    Forall (fun o => snd o = None) tl /\
    snd hd = snd (last rest ([], None)) /\
    Forall (fun o => fst o <> []) out.
Proof.
  destruct Hok as [_ _ Hid Hdata _ _].
  induction fuel as [|fuel IH];
    intros num balanced rest j rnews avail tsz tent out Hnum Hbal Hrest Hed Hj Hsn
      [I1 [I2 I3]] HR.
  { destruct rest; [congruence|discriminate]. }
  destruct rest as [|o r]; [congruence|]. specialize (Hj o r eq_refl).
  cbn [copy_loop] in HR. cbn [left_over] in *.
  (* the allocation *)
  set (alloc := ((avail =? 0)%Z && (0 <? tent)%N)%bool) in *.
  assert (HA : exists cur rn avail1,
    (if alloc then ([], None) :: rnews else rnews) = cur :: rn /\
    (if alloc then Z.of_N balanced else avail) = avail1 /\
    Forall (fun o => fst o <> []) rn /\ Forall (fun o => snd o = None) (cur :: rn) /\
    conc (rev rn) ++ fst cur = conc (rev rnews) /\
    (fst cur = [] -> skipn j (fst o) ++ conc r <> [] /\ avail1 <> 0%Z /\
         (N.of_nat (length (cur :: rn)) <> num - 1 -> avail1 = Z.of_N balanced)%N)).
  { destruct alloc eqn:Eal; unfold alloc in Eal.
    - apply andb_prop in Eal. destruct Eal as [E1 E2].
      exists ([], None), rnews, (Z.of_N balanced).
      split; [reflexivity|]. split; [reflexivity|].
      assert (Hne : Forall (fun o => fst o <> []) rnews).
      { destruct rnews as [|cur rn]; [constructor|]. destruct I3 as [I3 I4].
        constructor; [|assumption]. intros E. destruct (I4 E) as [_ [H _]]. lia. }
      split; [assumption|]. split; [constructor; [reflexivity|assumption]|].
      split; [apply app_nil_r|]. intros _. split; [|split; [lia|reflexivity]].
      intros E. rewrite E in I1. cbn in I1. lia.
    - destruct rnews as [|cur rn].
      + exfalso. destruct I3 as [-> I3]. cbn in Eal.
        destruct (skipn j (fst o) ++ conc r); [congruence|cbn in I1; lia].
      + destruct I3 as [I3 I4]. exists cur, rn, avail.
        split; [reflexivity|]. split; [reflexivity|]. split; [assumption|].
        split; [assumption|]. split; [|assumption].
        cbn [rev]. rewrite conc_app, conc_cons. cbn. now rewrite app_nil_r. }
  destruct HA as [cur [rn [avail1 [E1 [E2 [H1 [H2 [H3 H4]]]]]]]].
  rewrite E1, E2 in HR. clearbody alloc. clear E1 E2.
  unfold copy_size in HR. cbn [fst snd] in HR.
  set (es := skipn j (fst o)) in *.
  set (n := fit sz es (N.min (Z.to_N (avail1 mod 2 ^ 32)) (c_data c - total sz (fst cur)))) in *.
  assert (Hn : (n <= length es)%nat) by apply fit_le.
  assert (Hnf : n = fit sz es (N.min (Z.to_N (avail1 mod 2 ^ 32))
    (c_data c - total sz (fst cur)))) by reflexivity.
  clearbody n.
  assert (Hles : length es = (length (fst o) - j)%nat) by apply skipn_length.
  set (cur' := (fst cur ++ firstn n es,
      match snd o with
      | Some e => if (j + n =? length (fst o))%nat then Some e else snd cur
      | None => snd cur end) : seg) in *.
  pose proof (Forall_inv H2) as Hc1. pose proof (Forall_inv_tail H2) as Hc2.
  cbn beta in Hc1.
  destruct (Nat.eqb_spec (length (fst o)) (j + n)) as [EF|EF].
  - (* the old node is finished *)
    assert (Hall : firstn n es = es) by (apply firstn_all2; lia).
    destruct r as [|o2 r].
    + cbn in HR. destruct fuel; cbn in HR; injection HR as <-.
      all: exists cur', rn; split; [reflexivity|].
      all: assert (Hcur' : fst cur' = fst cur ++ es) by (unfold cur'; cbn [fst]; now rewrite Hall).
      all: assert (Hne : fst cur' <> []).
      1,3: rewrite Hcur'; intros E; apply app_eq_nil in E; destruct E as [Ea Eb];
        destruct (H4 Ea) as [H5 _]; rewrite Eb in H5; cbn in H5; congruence.
      all: split; [cbn [rev]; rewrite conc_app, conc_one, Hcur', app_assoc, H3;
        rewrite app_nil_r; reflexivity|].
      all: split; [assumption|].
      all: split; [unfold cur'; cbn [snd last]; rewrite EF, Nat.eqb_refl, Hc1;
        destruct (snd o); reflexivity|].
      all: constructor; assumption.
    + assert (Ho : snd o = None) by (inversion Hed; assumption).
      assert (Hcur' : cur' = (fst cur ++ es, None)).
      { unfold cur'. rewrite Ho, Hall, Hc1. reflexivity. }
      rewrite Hcur' in HR. cbn [fst] in HR.
      eapply IH in HR; try eassumption; try discriminate.
      * destruct HR as [hd [tl [-> [R1 [R2 [R3 R4]]]]]]. exists hd, tl.
        split; [reflexivity|]. split; [|split; [assumption|split; [exact R3|assumption]]].
        rewrite R1. cbn [rev left_over skipn]. rewrite conc_app, conc_one, conc_cons. cbn [fst].
        rewrite (app_assoc (conc (rev rn))), H3. rewrite <- !app_assoc. reflexivity.
      * inversion Hed; assumption.
      * intros o' r' [= <- <-]. lia.
      * constructor; [reflexivity|assumption].
      * unfold cinv. cbn [left_over skipn]. split; [|split].
        { clear - I1 EF Hles Hj Hn. rewrite I1, conc_cons, !app_length. lia. }
        { lia. }
        { split; [assumption|]. cbn [fst]. intros E. apply app_eq_nil in E.
          destruct E as [Ea Eb]. destruct (H4 Ea) as [H5 [H6 H7]].
          assert (Hz : fst cur ++ firstn n es = []) by now rewrite Hall, Ea, Eb.
          rewrite Hz. cbn [total]. rewrite Eb in H5. cbn [app] in H5.
          split; [exact H5|]. split; [lia|]. intros _. lia. }
  - assert (Hne : es <> []) by (intros E; rewrite E in Hles, Hn; cbn in Hles, Hn; lia).
    assert (Hrem : left_over (o :: r) (j + n) <> []).
    { cbn [left_over]. rewrite <- skipn_add. fold es.
      intros E. apply app_eq_nil in E. destruct E as [E _].
      apply (f_equal (@length _)) in E. rewrite skipn_length in E. cbn in E. lia. }
    assert (Hcur' : cur' = (fst cur ++ firstn n es, None)).
    { unfold cur'. rewrite Hc1. destruct (Nat.eqb_spec (j + n) (length (fst o))); [lia|].
      destruct (snd o); reflexivity. }
    assert (HL : (tent - N.of_nat n)%N = N.of_nat (length (left_over (o :: r) (j + n)))).
    { cbn [left_over]. rewrite <- skipn_add. fold es. rewrite app_length, skipn_length.
      rewrite app_length in I1. lia. }
    assert (Hres : forall avail2 tsz2,
      (tsz2 < c_data c)%N ->
      (fst cur ++ firstn n es = [] -> avail2 <> 0%Z /\
         (N.of_nat (length (cur :: rn)) <> num - 1 -> avail2 = Z.of_N balanced)%N) ->
      copy_loop c sz fuel num balanced (o :: r) (j + n) (cur' :: rn) avail2 tsz2
        (tent - N.of_nat n) = Ok out ->
      exists hd tl, out = hd :: tl /\
        conc (rev out) = conc (rev rnews) ++ es ++ conc r /\
        Forall (fun o => snd o = None) tl /\
        snd hd = snd (last (o :: r) ([], None)) /\
        Forall (fun o => fst o <> []) out).
    { intros avail2 tsz2 Ht Hav HR2. rewrite Hcur' in HR2.
      eapply IH in HR2; try eassumption; try discriminate.
      - destruct HR2 as [hd [tl [-> [R1 [R2 [R3 R4]]]]]]. exists hd, tl.
        split; [reflexivity|]. split; [|split; [assumption|split; [exact R3|assumption]]].
        rewrite R1. cbn [rev left_over]. rewrite conc_app, conc_one. cbn [fst].
        rewrite (app_assoc (conc (rev rn))), H3, <- skipn_add. fold es.
        rewrite <- (firstn_skipn n es) at 3. rewrite <- !app_assoc. reflexivity.
      - intros o' r' [= <- <-]. lia.
      - constructor; [reflexivity|assumption].
      - split; [exact HL|]. split; [assumption|]. split; [assumption|].
        cbn [fst]. intros E. split; [assumption|]. destruct (Hav E) as [Ha Hb].
        split; [assumption|]. cbn [length] in *. exact Hb. }
    destruct ((N.of_nat (length (cur :: rn)) =? num - 1)%N &&
      (tsz - (total sz (fst cur ++ firstn n es) - total sz (fst cur)) <?
       c_data c - total sz (fst cur ++ firstn n es))%N)%bool eqn:EB.
    + apply andb_prop in EB. destruct EB as [EB1 EB2].
      eapply Hres; [| |exact HR]; [lia|].
      intros E. split; [|intros; lia].
      rewrite E. cbn [total]. lia.
    + destruct (nil_dec _ (fst cur ++ firstn n es)) as [E|E].
      * (* nothing was copied into the fresh node: the loop does not end *)
        exfalso. apply app_eq_nil in E. destruct E as [Ea Eb].
        destruct (H4 Ea) as [H5 [H6 H7]].
        assert (En : n = 0%nat).
        { apply (f_equal (@length _)) in Eb. rewrite firstn_length in Eb. cbn in Eb. lia. }
        assert (Hl : N.of_nat (length (cur :: rn)) <> (num - 1)%N).
        { intros Hl. rewrite Hl, N.eqb_refl in EB. cbn [andb] in EB.
          rewrite Ea, Eb in EB. cbn [app total] in EB. lia. }
        specialize (H7 Hl). rewrite H7 in *.
        destruct es as [|p0 es0] eqn:Ees; [congruence|].
        assert (Hp0 : nth_error (fst o) (j + n) = Some p0).
        { rewrite En, Nat.add_0_r. rewrite <- (firstn_skipn j (fst o)).
          rewrite nth_error_app2 by (rewrite firstn_length; lia).
          rewrite firstn_length, Nat.min_l by lia. rewrite Nat.sub_diag.
          unfold es in Ees. rewrite Ees. reflexivity. }
        assert (Hbig : (balanced < sz p0)%N).
        { rewrite En in Hnf. symmetry in Hnf. rename Hnf into En'. apply fit_zero in En'. rewrite Ea in En'. cbn [total] in En'.
          rewrite Z.mod_small in En' by lia. rewrite N2Z.id in En'. lia. }
        rewrite (copy_stuck fuel num balanced o r (j + n) (cur' :: rn) _ _ p0) in HR;
          [discriminate|assumption|assumption| |lia| |lia].
        { cbn [length] in *. lia. }
        { rewrite HL. destruct (left_over (o :: r) (j + n)); [congruence|cbn; lia]. }
      * eapply Hres; [| |exact HR]; [lia|]. intros E'. congruence.
Qed.

Lemma total_conc : forall (l : list seg) a,
  fold_left (fun a o => a + total sz (fst o))%N l a = (a + total sz (conc l))%N.
Proof.
  induction l as [|o l IH]; intros a; cbn [fold_left]; [cbn; lia|].
  rewrite IH, conc_cons, total_app. lia.
Qed.
Lemma count_conc : forall (l : list seg) a,
  fold_left (fun a o => a + N.of_nat (length (fst o)))%N l a
  = (a + N.of_nat (length (conc l)))%N.
Proof.
  induction l as [|o l IH]; intros a; cbn [fold_left]; [cbn; lia|].
  rewrite IH, conc_cons, app_length. lia.
Qed.
Lemma fold_add : forall l a, fold_left Nat.add l a = (a + fold_left Nat.add l 0)%nat.
Proof.
  induction l as [|x l IH]; intros a; cbn; [lia|]. rewrite (IH (a + x)%nat), (IH x). lia.
Qed.
Lemma takes_conc : forall (l : list seg) tl,
  fold_left Nat.add (map (fun o => length (fst o)) l ++ tl) 0%nat
  = (length (conc l) + fold_left Nat.add tl 0)%nat.
Proof.
  induction l as [|o l IH]; intros tl; cbn [map app fold_left]; [reflexivity|].
  rewrite fold_add, IH, conc_cons, app_length. lia.
Qed.

Lemma removelast_nonempty : forall (T : Type) (x : T) l, l <> [] ->
  removelast (x :: l) = x :: removelast l.
Proof. intros T x [|y l] H; [congruence|reflexivity]. Qed.

Lemma edges_ok_app : forall a b, edges_ok (a ++ b) -> b <> [] ->
  Forall (fun o => snd o = None) a /\ edges_ok b.
Proof.
  unfold edges_ok. intros a b H Hb. rewrite removelast_app in H by assumption.
  apply Forall_app in H. exact H.
Qed.

Lemma edge_after_none : forall l d, Forall (fun o : seg => snd o = None) l ->
  edge_after d l = d.
Proof.
  induction l as [|o l IH]; intros d H; [reflexivity|]. inversion H; subst.
  cbn. rewrite H2. now apply IH.
Qed.

Lemma edge_after_last : forall l, edges_ok l -> l <> [] ->
  edge_after None l = snd (last l ([], None)).
Proof.
  intros l H Hn. destruct (exists_last Hn) as [l' [o ->]].
  destruct (edges_ok_app l' [o] H ltac:(discriminate)) as [H1 _].
  unfold edge_after. rewrite fold_left_app. fold (edge_after None l').
  rewrite edge_after_none by assumption. rewrite last_last. cbn. now destruct (snd o).
Qed.

(** The redistribution keeps the entries in order, leaves no new node empty
    and hands the edge to the last node. *)
Lemma redistribute_ok : forall fuel (left : seg) olds l news,
  snd left = None -> olds <> [] -> edges_ok olds -> (length olds <= 2)%nat ->
  redistribute c sz fuel left olds = Ok (Some (l, news)) ->
  (exists tk, fst l = fst left ++ tk) /\
  fst l ++ conc news = fst left ++ conc olds /\
  Forall (fun o => fst o <> []) news /\ (length news <= length olds)%nat /\
  Forall (fun o => snd o = None) (removelast (l :: news)) /\
  snd (last (l :: news) ([], None)) = snd (last olds ([], None)).
Proof.
  intros fuel left olds l news HL Hne Hed H2 HR. unfold redistribute in HR.
  rewrite total_conc in HR. rewrite (ok_rebal c Hok) in HR. cbn [negb] in HR.
  rewrite andb_true_r in HR.
  set (occ0 := total sz (fst left)) in *.
  set (tsz := (occ0 + total sz (conc olds))%N) in *.
  set (num := (if (tsz =? 0)%N then 1 else (tsz - 1) / c_ideal c + 1)%N) in *.
  destruct (N.leb_spec (N.of_nat (length olds) + 1) num) as [|Hnum]; [discriminate|].
  set (balanced := (if (tsz =? 0)%N then 0 else (tsz - 1) / num + 1)%N) in *.
  destruct (N.ltb_spec balanced occ0) as [|Hocc]; [discriminate|].
  pose proof (ok_ideal c Hok) as Hid. pose proof (ok_data c Hok) as Hdata.
  assert (Hbal : (balanced <= c_ideal c /\ tsz - balanced <= balanced /\
                  (0 < tsz -> 0 < balanced) /\ 0 < num)%N).
  { unfold balanced, num in *. clearbody tsz. destruct (N.eqb_spec tsz 0) as [Ht|Ht]; [repeat split; lia|].
    assert (Hn2 : ((tsz - 1) / c_ideal c + 1 <= 2)%N) by lia.
    set (q := ((tsz - 1) / c_ideal c)%N) in *.
    assert (Hq : (tsz - 1 < c_ideal c * (q + 1))%N).
    { unfold q. pose proof (N.mul_succ_div_gt (tsz - 1) (c_ideal c) ltac:(lia)). lia. }
    assert (Hcase : q = 0%N \/ q = 1%N) by lia. destruct Hcase as [-> | ->].
    - change (0 + 1)%N with 1%N in *. rewrite N.div_1_r. lia.
    - change (1 + 1)%N with 2%N in *.
      pose proof (N.div_mod (tsz - 1) 2 ltac:(lia)).
      pose proof (N.mod_lt (tsz - 1) 2 ltac:(lia)). lia. }
  destruct Hbal as [HB1 [HB2 [HB3 HB4]]].
  destruct (left_src sz olds (balanced - occ0)) as [takes [rest j]] eqn:ES.
  destruct (left_src_ok _ _ _ _ _ ES) as [pre [Eolds HP]].
  rewrite count_conc in HR. cbn [N.add] in HR.
  destruct rest as [|o rest].
  - destruct HP as [-> [Etk HP]].
    assert (EL : copy_loop c sz fuel num balanced [] 0 [] 0 (tsz - occ0 - (balanced - occ0))
      (N.of_nat (length (conc olds)) - N.of_nat (fold_left Nat.add takes 0%nat)) =
      Ok (@nil seg)) by (destruct fuel; reflexivity).
    rewrite EL in HR. cbn [rev] in HR.
    destruct (Nat.ltb_spec (length olds) (length (@nil seg))) as [|_]; [discriminate|].
    destruct (_ && _)%bool; [discriminate|]. injection HR as <- <-.
    rewrite app_nil_r in Eolds. subst pre takes.
    rewrite copy_pre by (fold occ0; lia). cbn [fst snd conc map concat].
    rewrite app_nil_r. split; [eauto|]. split; [reflexivity|]. split; [constructor|].
    split; [cbn; lia|].
    split; [constructor|]. cbn [last snd]. rewrite HL. now apply edge_after_last.
  - destruct HP as [Hj [Etk HP]].
    destruct (edges_ok_app pre (o :: rest) ltac:(rewrite <- Eolds; assumption)
                ltac:(discriminate)) as [Hpre Hed2].
    assert (Hover : left_over (o :: rest) j <> []).
    { cbn. intros E. apply app_eq_nil in E. destruct E as [E _].
      apply (f_equal (@length _)) in E. rewrite skipn_length in E. cbn in E. lia. }
    assert (Hoc : conc olds = conc pre ++ firstn j (fst o) ++ left_over (o :: rest) j).
    { rewrite Eolds, conc_app, conc_cons. cbn [left_over].
      rewrite (app_assoc (firstn j (fst o))), firstn_skipn. reflexivity. }
    assert (Ht0 : (0 < tsz)%N).
    { unfold tsz. rewrite Hoc, !total_app.
      destruct (left_over (o :: rest) j) as [|p0 ?]; [congruence|]. cbn [total].
      pose proof (Hsz p0). lia. }
    destruct (copy_loop _ _ _ _ _ _ _ _ _ _ _) as [rnews|] eqn:EL; [|discriminate].
    apply copy_loop_ok in EL; try assumption; try discriminate; try lia.
    + destruct EL as [hd [tl [-> [L1 [L2 [L3 L4]]]]]].
      destruct (Nat.ltb_spec (length olds) (length (rev (hd :: tl)))) as [|Hlen]; [discriminate|].
      destruct (_ && _)%bool; [discriminate|]. injection HR as <- <-.
      subst takes.
      assert (Hcomb : combine olds (map (fun o => length (fst o)) pre ++ [j]) =
        combine pre (map (fun o => length (fst o)) pre) ++ [(o, j)]).
      { rewrite Eolds, combine_app2 by (now rewrite map_length). f_equal.
        cbn. now destruct rest. }
      rewrite Hcomb, fold_left_app.
      rewrite total_app in HP.
      rewrite copy_pre by (fold occ0; lia). cbn [fold_left fst snd].
      rewrite copy_entries_part; [|assumption|cbn [fst]; rewrite total_app; fold occ0; lia].
      cbn [fst snd]. split; [rewrite <- app_assoc; eauto|].
      split; [|split; [|split; [assumption|split]]].
      * cbn [rev] in *. rewrite L1, Hoc. rewrite <- !app_assoc. reflexivity.
      * change (rev tl ++ [hd]) with (rev (hd :: tl)). apply Forall_rev. assumption.
      * rewrite removelast_nonempty by (intros E; apply app_eq_nil in E; destruct E; discriminate).
        constructor; [cbn; rewrite edge_after_none by assumption; exact HL|].
        rewrite removelast_last. now apply Forall_rev.
      * change (last (((fst left ++ conc pre) ++ firstn j (fst o), edge_after (snd left) pre) :: rev tl ++ [hd]) ([], None)) with
          (last ((((fst left ++ conc pre) ++ firstn j (fst o), edge_after (snd left) pre) :: rev tl) ++ [hd]) ([], None)).
        rewrite last_last, L3, Eolds. symmetry. clear.
        induction pre as [|x pre IH]; [reflexivity|].
        cbn [app]. rewrite <- IH. destruct (pre ++ o :: rest) eqn:E; [|reflexivity].
        apply app_eq_nil in E. destruct E. discriminate.
    + intros o' r' [= <- <-]. lia.
    + constructor.
    + unfold cinv. split; [|split; [lia|split; [reflexivity|assumption]]].
      subst takes. rewrite takes_conc. cbn [fold_left Nat.add]. rewrite Hoc, !app_length.
      rewrite firstn_length, Nat.min_l by lia. lia.
Qed.

End Redistribute.
