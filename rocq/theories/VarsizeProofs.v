From Coq Require Import NArith ZArith List Lia Bool Permutation.
From Verif Require Import Base SlabModel SlabSpec SlabProofs ExtSpec ExtFacts BitmapModel BitmapProofs VarsizeModel VarsizeSpec.
Import ListNotations.
Local Open Scope N_scope.

(** ** Counting: [f] places besides the bitmap *)
Definition cn (total : N) (bm : bits) (f : N -> nat) : Prop :=
  (forall b, b < total -> (f b + (if bm b then 0 else 1) = 1)%nat) /\ (forall b, total <= b -> f b = 0%nat).

Lemma cn_ext : forall t bm f g, (forall b, f b = g b) -> cn t bm f -> cn t bm g.
Proof. intros t bm f g H [A B]. split; intros b Hb; rewrite <- H; auto. Qed.

Lemma is_set_spec : forall bm x, is_set bm x = true <-> (forall b, inside b x = true -> bm b = true).
Proof.
  intros bm x. unfold is_set. rewrite forallb_forall. split; intros H b Hb; apply H; now apply blks_of_in.
Qed.

Lemma free_direct_ok : forall l t bm f, cn t bm (fun b => holders b l + f b)%nat ->
  exists bm', free_direct bm l = Some bm' /\ cn t bm' f.
Proof.
  induction l as [|x l IH]; intros t bm f H; cbn [free_direct].
  - exists bm. split; [reflexivity|]. eapply cn_ext; [|exact H]. reflexivity.
  - assert (Hs : is_set bm x = true).
    { apply is_set_spec. intros b Hb. destruct H as [A B]. destruct (N.lt_ge_cases b t) as [Hlt|Hge].
      - specialize (A b Hlt). rewrite holders_cons, Hb in A. destruct (bm b); [reflexivity|lia].
      - specialize (B b Hge). rewrite holders_cons, Hb in B. lia. }
    rewrite Hs. apply IH. destruct H as [A B]. split; intros b Hb.
    + specialize (A b Hb). rewrite holders_cons in A. unfold reset_bits.
      rewrite is_set_spec in Hs. specialize (Hs b). destruct (inside b x); [|lia].
      rewrite Hs in A by reflexivity. lia.
    + specialize (B b Hb). rewrite holders_cons in B. lia.
Qed.

Lemma set_bits_cn : forall t bm f s n, cn t bm f -> s + n <= t -> (forall b, s <= b < s + n -> bm b = false) ->
  cn t (set_bits bm (s, n)) (fun b => holders b [(s, n)] + f b)%nat.
Proof.
  intros t bm f s n [A B] Ht Hc. split; intros b Hb; rewrite holders_cons, holders_nil.
  - unfold set_bits. specialize (A b Hb). specialize (Hc b).
    destruct (inside b (s, n)) eqn:E; unfold inside in E; cbn [fst snd] in E.
    + rewrite Hc in A by lia. lia.
    + lia.
  - specialize (B b Hb). unfold inside. cbn [fst snd]. destruct ((s <=? b) && (b <? s + n)) eqn:E; lia.
Qed.

Lemma set_bits_mono : forall bm x b, bm b = true -> set_bits bm x b = true.
Proof. intros bm x b H. unfold set_bits. destruct (inside b x); auto. Qed.

(** ** Sweeps *)
Lemma fill_slab_total : forall fuel c i rq num remain lvl only, wf c -> (i < length c)%nat ->
  length rq = length c -> remain <= N.of_nat fuel ->
  exists c' rq' num' remain', fill_slab fuel c i (2 ^ N.of_nat i) rq num remain lvl only = Some (c', rq', num', remain') /\
    wf c' /\ length c' = length c /\ length rq' = length rq /\ remain' <= remain.
Proof.
  induction fuel as [|fuel IH]; intros c i rq num remain lvl only Hwf Hil Hrq Hf; cbn [fill_slab];
    assert (Hpos : 0 < 2 ^ N.of_nat i) by (apply N.neq_0_lt_0, N.pow_nonzero; lia);
    (destruct (N.leb_spec (2 ^ N.of_nat i) remain) as [Hle|Hgt]; [|eexists _, _, _, _; split; [reflexivity|]; ands; auto; lia]).
  { lia. }
  destruct (nth_error rq i) as [r|] eqn:Hr; [|apply nth_error_None in Hr; lia].
  destruct (need_refill r); [|eexists _, _, _, _; split; [reflexivity|]; ands; auto; lia].
  destruct (nth_error c i) as [s|] eqn:Hn; [|apply nth_error_None in Hn; lia].
  destruct (push_slab_spec c i s (Entry num (2 ^ N.of_nat i) lvl) only) as [c' [p [Hp [Hw [Hl _]]]]]; auto.
  rewrite Hp. destruct p.
  - destruct (IH c' i (set_nth i (Refill (rf_req r) (rf_done r + 1)) rq) (num + 2 ^ N.of_nat i)
                (remain - 2 ^ N.of_nat i) lvl only) as [c2 [rq2 [n2 [r2 [A [B [C [D E]]]]]]]]; auto; try lia.
    { rewrite set_nth_length. lia. }
    rewrite set_nth_length in D. eexists _, _, _, _. split; [exact A|]. ands; auto; lia.
  - eexists _, _, _, _. split; [reflexivity|]. rewrite set_nth_length. ands; auto; lia.
Qed.

Lemma fill_loop_total : forall i c rq num remain lvl only, wf c -> (i < length c)%nat -> length rq = length c ->
  exists c' rq' num' remain', fill_loop c i rq num remain lvl only = Some (c', rq', num', remain') /\
    length rq' = length c /\ length c' = length c.
Proof.
  induction i as [|i IH]; intros c rq num remain lvl only Hwf Hi Hrq; cbn [fill_loop];
  match goal with |- context [nth_error c ?j] => destruct (nth_error c j) as [s|] eqn:Hn;
         [|apply nth_error_None in Hn; lia]; destruct (Hwf _ _ Hn) as [Hsz _]; rewrite Hsz;
         destruct (fill_slab_total (N.to_nat remain) c j rq num remain lvl only) as [c1 [rq1 [n1 [r1 [A [B [C [D E]]]]]]]];
           auto; try lia; rewrite A;
         destruct (nth_error rq1 j) eqn:Hr; [|apply nth_error_None in Hr; lia] end.
  - eexists _, _, _, _. split; [reflexivity|]. split; lia.
  - destruct (r1 =? 0).
    + eexists _, _, _, _. split; [reflexivity|]. split; lia.
    + destruct (IH c1 rq1 n1 r1 lvl only) as [c2 [rq2 [n2 [r2 [F [G H]]]]]]; auto; try lia.
      eexists _, _, _, _. split; [exact F|]. split; lia.
Qed.

Lemma try_fill_total : forall c rq start n lvl only, wf c -> c <> [] -> length rq = length c ->
  exists c' rq' added, try_fill_cache c rq start n lvl only = Some (c', rq', added) /\ length rq' = length c.
Proof.
  intros c rq start n lvl only Hwf Hne Hrq. unfold try_fill_cache. cbv zeta.
  assert (Hl : (0 < length c)%nat) by (destruct c; [congruence|simpl; lia]).
  match goal with |- context [fill_loop c ?i _ _ _ _ _] =>
    destruct (fill_loop_total i c rq start n lvl only) as [c1 [rq1 [n1 [r1 [A [B C]]]]]]; auto end.
  { destruct (Nat.leb_spec (length c) (find_slab n)); lia. }
  rewrite A. eexists _, _, _. split; [reflexivity|]. exact B.
Qed.

Definition rqs_ok (n : nat) (w : sweep) : Prop := n <> O /\ length (sw_rq w) = n.

Lemma fill_rounds_ok : forall total scan, scan_ok total scan ->
  forall k bm c rq cur en lvl f, wf c -> c <> [] -> length rq = length c ->
  cn total bm (fun b => holders b (cached c) + f b)%nat ->
  exists bm' c', fill_rounds scan k bm c rq cur en lvl = Some (bm', c') /\ wf c' /\ length c' = length c /\
    cn total bm' (fun b => holders b (cached c') + f b)%nat.
Proof.
  intros total scan Hs. induction k as [|k IH]; intros bm c rq cur en lvl f Hwf Hne Hrq Hcn; cbn [fill_rounds].
  { eexists _, _. split; [reflexivity|]. ands; auto. }
  destruct (N.leb_spec cur en); [|eexists _, _; split; [reflexivity|]; ands; auto].
  destruct (scan bm cur en 1 (en - cur + 1)) as [s n] eqn:Es.
  destruct (N.eqb_spec n 0) as [->|Hn]; [eexists _, _; split; [reflexivity|]; ands; auto|].
  destruct (Hs _ _ _ _ _ _ _ Es) as [[Hz|[S1 [S2 [S3 [S4 S5]]]]] _]; [lia|lia|lia|].
  destruct (try_fill_total c rq s n lvl false Hwf Hne Hrq) as [c1 [rq1 [added [E R]]]]. rewrite E.
  pose proof (try_fill_spec _ _ _ _ _ _ _ _ _ Hwf E) as [W [L [Ha [ps [T P]]]]].
  cbv zeta. destruct (IH (if 0 <? added then set_bits bm (s, added) else bm) c1 rq1 (s + n) en lvl f) as [bm' [c' [A [B [C D]]]]].
  - exact W.
  - destruct c1; [destruct c; [congruence|discriminate]|discriminate].
  - lia.
  - assert (Hh : forall b, holders b (cached c1) = (holders b (cached c) + (if inside b (s, added) then 1 else 0))%nat).
    { intros b. unfold cached. rewrite (holders_exts_perm b _ _ P). unfold exts. rewrite map_app, holders_app.
      fold (exts ps). now rewrite (holders_tiles b _ _ _ T). }
    destruct (N.ltb_spec 0 added).
    + eapply cn_ext; [|apply (set_bits_cn total bm (fun b => holders b (cached c) + f b)%nat s added); auto; try lia].
      * intros b. cbn beta. rewrite Hh, holders_cons, holders_nil. lia.
      * intros b Hb. apply S5. lia.
    + eapply cn_ext; [|exact Hcn]. intros b. cbn beta. rewrite Hh.
      replace added with 0 by lia. unfold inside. cbn [fst snd]. destruct ((s <=? b) && (b <? s + 0)) eqn:Eb; lia.
  - eexists _, _. split; [exact A|]. ands; auto. lia.
Qed.

Lemma fill_cache_ok : forall cf scan, scan_ok (vc_total cf) scan ->
  forall ws bm c f, wf c -> Forall (rqs_ok (length c)) ws ->
  cn (vc_total cf) bm (fun b => holders b (cached c) + f b)%nat ->
  exists bm' c', fill_cache cf scan bm c ws = Some (bm', c') /\ wf c' /\ length c' = length c /\
    cn (vc_total cf) bm' (fun b => holders b (cached c') + f b)%nat.
Proof.
  intros cf scan Hs. induction ws as [|w ws IH]; intros bm c f Hwf Hws Hcn; cbn [fill_cache].
  { eexists _, _. split; [reflexivity|]. ands; auto. }
  inversion Hws as [|? ? [Hw1 Hw2] Hws']; subst. unfold fill_in_portion. cbv zeta.
  edestruct (fill_rounds_ok _ _ Hs (sw_rounds w) bm c (sw_rq w)) as [bm1 [c1 [A [B [C D]]]]]; eauto.
  { intros ->. now apply Hw1. }
  rewrite A. destruct (IH bm1 c1 f) as [bm2 [c2 [E [F [G H]]]]]; auto; [now rewrite C|].
  eexists _, _. split; [exact E|]. ands; auto. lia.
Qed.

(** ** The slab path *)
Lemma try_free_list_ok : forall es c ex, wf c -> Forall (fun e => e_cnt e < 65535 /\ e_cnt e < 2 ^ N.of_nat (length c)) es ->
  exists c' ex', try_free_list c es ex = Some (c', ex') /\ wf c' /\ length c' = length c /\
    forall b, (holders b (cached c') + holders b (exts ex') =
               holders b (cached c) + holders b (exts ex) + holders b (exts es))%nat.
Proof.
  induction es as [|e es IH]; intros c ex Hwf Hall; cbn [try_free_list].
  { eexists _, _. split; [reflexivity|]. ands; auto; intros b; cbn [exts map]; rewrite holders_nil; lia. }
  inversion Hall as [|? ? [H1 H2] Hall']; subst.
  destruct (try_free_holders c e ex Hwf H1 H2) as [c1 [ex1 [A [B [C D]]]]]. rewrite A.
  destruct (IH c1 ex1 B) as [c2 [ex2 [E [F [G H]]]]]; [now rewrite C|].
  eexists _, _. split; [exact E|]. ands; auto; [lia|]. intros b. rewrite H, D. cbn [exts map].
  rewrite !holders_cons, holders_nil. unfold exts. lia.
Qed.

Lemma ent_exts : forall l, map ent_ext l = exts l.
Proof. reflexivity. Qed.

Lemma take_pieces_spec : forall es out out' left, take_pieces out es = (out', left) -> (length out <= 6)%nat ->
  exts left = skipn (length out' - length out) (exts es) /\
  out' ++ exts left = out ++ exts es /\ (length out' <= 6)%nat /\ (length out <= length out')%nat /\
  (left <> [] -> length out' = 6%nat).
Proof.
  induction es as [|e es IH]; intros out out' left H Hl; cbn [take_pieces] in H.
  - injection H as <- <-. cbn [exts map]. rewrite Nat.sub_diag. ands; auto. congruence.
  - unfold has_room in H. destruct (Nat.ltb_spec (length out) 6).
    + apply IH in H; [|rewrite app_length; simpl; lia]. destruct H as [A [B [C [D E]]]].
      rewrite app_length in *. cbn [length] in *. ands; auto; try lia.
      * rewrite A. replace (length out' - length out)%nat with (S (length out' - (length out + 1)))%nat by lia. reflexivity.
      * rewrite B, <- app_assoc. reflexivity.
    + injection H as <- <-. rewrite Nat.sub_diag. ands; auto. intros _. lia.
Qed.

Lemma pos_len : forall l, Forall pos l -> N.of_nat (length l) <= blocks (exts l).
Proof.
  induction 1 as [|e l He _ IH]; [simpl; lia|]. cbn [exts map length blocks fold_right]. fold (exts l) (blocks (exts l)).
  unfold pos in He. cbn [ext_of snd]. lia.
Qed.

(** The slab attempts, from an empty block id. *)
Lemma slab_attempts_ok : forall cf scan req h, scan_ok (vc_total cf) scan ->
  h_contig h = r_contig req ->
  forall tries bm c f, wf c -> (length c <= 16)%nat -> legal_req (length c) req -> 0 < r_nblks req ->
  Forall (Forall (rqs_ok (length c))) tries -> (0 < length c)%nat ->
  cn (vc_total cf) bm (fun b => holders b (cached c) + f b)%nat ->
  exists bm' c' out, slab_attempts cf scan req h tries bm c [] = Some (bm', c', out) /\ wf c' /\ length c' = length c /\
    cn (vc_total cf) bm' (fun b => holders b (cached c') + (holders b out + f b))%nat /\
    (length out <= 6)%nat /\ blocks out <= r_nblks req /\ Forall (fun x => 0 < snd x) out /\
    (r_contig req = true -> out = [] \/ (length out = 1%nat /\ blocks out = r_nblks req)) /\
    (r_contig req = false -> r_min req = O -> tries <> [] -> h_partial h = true \/ r_nblks req <= 6 ->
       blocks out = r_nblks req \/ length out = 6%nat \/ entries c' = []).
Proof.
  intros cf scan req h Hs Hct. induction tries as [|ws rest IH];
    intros bm c f Hwf H16 Hreq Hnz Htr Hl0 Hcn; cbn [slab_attempts].
  { eexists _, _, _. split; [reflexivity|]. cbn [length blocks fold_right]. ands; auto; try lia. congruence. }
  inversion Htr as [|? ? Hws Hrest]; subst. cbn [has_room length Nat.ltb Nat.leb].
  destruct (pow16 _ Hl0 H16) as [Hp1 Hp2]. destruct Hreq as [R1 [R2 R3]].
  destruct (try_alloc_spec c req Hwf R2 R3) as [c1 [rs [st [E [W [L [Hh [[[Ok1 Okp] Ok2] [Ss [Sn [Sc Se]]]]]]]]]]]; [lia|].
  change (Nat.ltb (length (@nil ext)) 6) with true. cbn match. rewrite E.
  assert (Hcnt : Forall (fun e => e_cnt e < 65535 /\ e_cnt e < 2 ^ N.of_nat (length c1)) (rs_out rs)).
  { apply Forall_forall. intros e He. apply in_blocks_le in He. rewrite L. lia. }
  (* giving up *)
  assert (Hgive : exists bm1 c2, discard bm c1 rs = Some (bm1, c2) /\ wf c2 /\ length c2 = length c /\
            cn (vc_total cf) bm1 (fun b => holders b (cached c2) + f b)%nat /\
            (entries c1 = [] -> rs_out rs = [] -> entries c2 = [])).
  { unfold discard. destruct (try_free_list_ok (rs_out rs) c1 (rs_excess rs) W Hcnt) as [c2 [ex [A [B [C D]]]]].
    rewrite A. unfold free_excess_blocks. rewrite ent_exts.
    destruct (free_direct_ok (exts ex) (vc_total cf) bm (fun b => holders b (cached c2) + f b)%nat) as [bm1 [F G]].
    { eapply cn_ext; [|exact Hcn]. intros b. cbn beta. specialize (D b). specialize (Hh b). unfold held in Hh. lia. }
    rewrite F. eexists _, _. split; [reflexivity|]. ands; auto; [lia|].
    intros He Ho. rewrite Ho in A. cbn [try_free_list] in A. injection A as <- _. exact He. }
  destruct Hgive as [bm1 [c2 [G1 [G2 [G3 [G4 G5]]]]]].
  assert (Hagain : (r_contig req = false -> r_min req = O -> h_partial h = true \/ r_nblks req <= 6 -> entries c2 = []) ->
     exists bm' c' out,
     match rest with
     | [] => Some (bm1, c2, [])
     | _ => match fill_cache cf scan bm1 c2 ws with
            | None => None
            | Some (bm2, c3) => slab_attempts cf scan req h rest bm2 c3 []
            end
     end = Some (bm', c', out) /\ wf c' /\ length c' = length c /\
    cn (vc_total cf) bm' (fun b => holders b (cached c') + (holders b out + f b))%nat /\
    (length out <= 6)%nat /\ blocks out <= r_nblks req /\ Forall (fun x => 0 < snd x) out /\
    (r_contig req = true -> out = [] \/ (length out = 1%nat /\ blocks out = r_nblks req)) /\
    (r_contig req = false -> r_min req = O -> h_partial h = true \/ r_nblks req <= 6 ->
       blocks out = r_nblks req \/ length out = 6%nat \/ entries c' = [])).
  { intros Hemp. destruct rest as [|ws2 rest'].
    - eexists _, _, _. split; [reflexivity|]. cbn [length blocks fold_right]. ands; auto; try lia.
    - destruct (fill_cache_ok cf scan Hs ws bm1 c2 f) as [bm2 [c3 [A [B [C D]]]]]; auto.
      { now rewrite G3. }
      rewrite A. destruct (IH bm2 c3 f) as [bm' [c' [out [P1 [P2 [P3 [P4 [P5 [P6 [P7 [P8 P9]]]]]]]]]]]; auto; try lia.
      { unfold legal_req. rewrite C, G3. auto. }
      { rewrite C, G3. exact Hrest. }
      eexists _, _, _. split; [exact P1|]. ands; auto; try lia.
      intros X1 X2 X3. apply P9; auto. discriminate. }
  destruct (match st with SUCCESS => true | PARTIAL => h_partial h || negb (h_contig h) | FAILED => false end) eqn:Euse.
  - destruct (take_pieces [] (rs_out rs)) as [out1 left] eqn:Et.
    pose proof (take_pieces_spec _ _ _ _ Et ltac:(simpl; lia)) as [T1 [T2 [T3 [T4 T5]]]]. cbn [app] in T2.
    assert (Hpos1 : Forall (fun x => 0 < snd x) (exts (rs_out rs))).
    { apply Forall_map. eapply Forall_impl; [|exact Okp]. intros e He. exact He. }
    rewrite <- T2 in Hpos1. apply Forall_app in Hpos1 as [Hpo _].
    destruct left as [|e0 left].
    + cbn [exts map] in T2. rewrite app_nil_r in T2. subst out1.
      unfold free_excess_blocks. rewrite ent_exts.
      destruct (free_direct_ok (exts (rs_excess rs)) (vc_total cf) bm
                  (fun b => holders b (cached c1) + (holders b (exts (rs_out rs)) + f b))%nat) as [bm' [F G]].
      { eapply cn_ext; [|exact Hcn]. intros b. cbn beta. specialize (Hh b). unfold held in Hh. lia. }
      rewrite F. eexists _, _, _. split; [reflexivity|]. ands; auto; try lia.
      * intros X. destruct (Sc X) as [X1 X2]. destruct st.
        -- right. split; [|rewrite Ok1; auto]. specialize (Ss eq_refl).
           unfold exts. rewrite map_length. destruct (rs_out rs) as [|e l]; [|simpl in X1 |- *; lia].
           cbn in Ok1. lia.
        -- left. rewrite X2 by congruence. reflexivity.
        -- discriminate.
      * intros X1 X2 _ _. destruct st; [left; rewrite Ok1; auto| |]; right; right; apply Se; auto; congruence.
    + assert (L6 : length out1 = 6%nat) by (apply T5; discriminate).
      destruct (h_partial h) eqn:Ep.
      * unfold free_excess_blocks. rewrite ent_exts.
        destruct (free_direct_ok (exts (rs_excess rs ++ e0 :: left)) (vc_total cf) bm
                  (fun b => holders b (cached c1) + (holders b out1 + f b))%nat) as [bm' [F G]].
        { eapply cn_ext; [|exact Hcn]. intros b. cbn beta. specialize (Hh b). unfold held in Hh.
          rewrite exts_app, holders_app. rewrite <- T2, holders_app in Hh. lia. }
        rewrite F. eexists _, _, _. split; [reflexivity|]. ands; auto; try lia.
        -- rewrite <- Ok1, <- T2, blocks_app in Ok2. lia.
        -- intros X. destruct (Sc X) as [X1 _]. exfalso.
           assert (Hlen : length (out1 ++ exts (e0 :: left)) = length (exts (rs_out rs))) by now rewrite T2.
           unfold exts in Hlen. rewrite app_length, !map_length in Hlen. cbn [length] in Hlen. lia.
      * rewrite G1. destruct Hagain as [bm' [c' [out [P1 [P2 [P3 [P4 [P5 [P6 [P7 [P8 P9]]]]]]]]]]].
        { intros _ _ [X|X]; [congruence|]. exfalso.
          pose proof (pos_len _ Okp) as X3.
          assert (Hlen : length (out1 ++ exts (e0 :: left)) = length (exts (rs_out rs))) by now rewrite T2.
          unfold exts in Hlen. rewrite app_length, !map_length in Hlen. cbn [length] in Hlen. lia. }
        eexists _, _, _. split; [exact P1|]. ands; auto.
  - rewrite G1. destruct Hagain as [bm' [c' [out [P1 [P2 [P3 [P4 [P5 [P6 [P7 [P8 P9]]]]]]]]]]].
    { intros X1 X2 _. destruct st; [discriminate| |].
      - rewrite Hct, X1, orb_true_r in Euse. discriminate.
      - apply G5; [apply Se; auto; congruence|].
        destruct Sn as [Sn1 Sn2]; [congruence|]. unfold end_status in Sn2.
        destruct (N.ltb_spec 0 (rs_alloced rs)); [congruence|].
        pose proof (pos_len _ Okp). destruct (rs_out rs); [reflexivity|]. cbn [length] in *. lia. }
    eexists _, _, _. split; [exact P1|]. ands; auto.
Qed.

(** ** The direct path *)
Lemma direct_rounds_ok : forall total scan, scan_ok total scan ->
  forall k bm cur en minb remain out f, 0 < minb -> (6 < k + length out)%nat -> (length out <= 6)%nat ->
  cn total bm (fun b => holders b out + f b)%nat ->
  exists bm' rem' out', direct_rounds scan k bm cur en minb remain out = (bm', rem', out') /\
    cn total bm' (fun b => holders b out' + f b)%nat /\
    (rem' + blocks out' = remain + blocks out /\ rem' <= remain) /\ (length out <= length out' <= 6)%nat /\
    (Forall (fun x => 0 < snd x) out -> Forall (fun x => 0 < snd x) out') /\
    (forall b, bm b = true -> bm' b = true) /\
    (remain <= minb -> out' = out \/ (length out' = S (length out) /\ rem' = 0)) /\
    (minb = 1 -> rem' = 0 \/ length out' = 6%nat \/ forall b, cur <= b <= en -> b < total -> bm' b = true).
Proof.
  intros total scan Hs. induction k as [|k IH]; intros bm cur en minb remain out f Hm Hk Hl Hcn; cbn [direct_rounds].
  { lia. }
  unfold has_room. destruct (negb (remain =? 0) && (cur <=? en) && Nat.ltb (length out) 6) eqn:Ec.
  2: { eexists _, _, _. split; [reflexivity|]. ands; auto; [lia|]. intros _.
       destruct (N.eqb_spec remain 0); [now left|]. destruct (N.leb_spec cur en); [|right; right; intros; lia].
       destruct (Nat.ltb_spec (length out) 6); [discriminate|]. right. left. lia. }
  destruct (scan bm cur en (N.min minb remain) remain) as [s n] eqn:Es.
  destruct (Hs _ _ _ _ _ _ _ Es) as [Hsc Hcomp]; [lia|lia|].
  destruct (N.eqb_spec n 0) as [Hn|Hn].
  { eexists _, _, _. split; [reflexivity|]. ands; auto; [lia|]. intros ->.
    right. right. intros b Hb Ht. apply Hcomp; auto. lia. }
  destruct Hsc as [Hz|[S1 [S2 [S3 [S4 S5]]]]]; [lia|].
  destruct (IH (set_bits bm (s, n)) (s + n) en minb (remain - n) (out ++ [(s, n)]) f) as
    [bm' [rem' [out' [E [A [B [C [D [F [G H]]]]]]]]]]; auto.
  { rewrite app_length. simpl. lia. }
  { rewrite app_length. simpl. lia. }
  { eapply cn_ext; [|apply set_bits_cn; [exact Hcn|exact S3|exact S5]].
    intros b. cbn beta. rewrite holders_app. lia. }
  eexists _, _, _. split; [exact E|]. rewrite blocks_app, app_length in *. cbn [blocks fold_right snd length] in *.
  ands; auto; try lia.
  - intros Hp. apply D. apply Forall_app. split; [exact Hp|]. repeat constructor. cbn. lia.
  - intros b Hb. apply F. now apply set_bits_mono.
  - intros Hr. destruct G as [->|[G1 G2]]; [lia| |].
    + right. rewrite app_length in *. cbn [length] in *. rewrite blocks_app in B. cbn [blocks fold_right snd] in B. lia.
    + exfalso. rewrite G2 in *. assert (n = remain) by lia. subst n. rewrite N.sub_diag in *.
      (* nothing remained, so no further piece *)
      assert (Ho : out' = out ++ [(s, remain)]) by (destruct k; cbn in E; congruence).
      rewrite Ho, app_length in G1. simpl in G1. lia.
  - intros ->. destruct (H eq_refl) as [X|[X|X]]; auto. right. right. intros b Hb Ht.
    destruct (N.lt_ge_cases b s) as [Hlt|Hge].
    + apply F. apply set_bits_mono. apply Hcomp; auto; lia.
    + destruct (N.lt_ge_cases b (s + n)) as [Hlt|Hge2].
      * apply F. unfold set_bits, inside. cbn [fst snd]. destruct ((s <=? b) && (b <? s + n)) eqn:Eb; [reflexivity|lia].
      * apply X; lia.
Qed.

Definition full_portion (cf : vcfg) (bm : bits) (p : N) : Prop :=
  forall b, p * vc_bpp cf <= b <= p * vc_bpp cf + vc_bpp cf - 1 -> b < vc_total cf -> bm b = true.

(** [j] portions are behind us. *)
Lemma direct_portions_ok : forall cf scan, scan_ok (vc_total cf) scan -> 0 < vc_bpp cf ->
  forall fuel first p minb maxp remain bm out f j, 0 < minb -> (length out <= 6)%nat ->
  first < num_portions cf -> p = (first + j) mod num_portions cf -> N.of_nat fuel + j = num_portions cf -> (0 < fuel)%nat ->
  0 < maxp -> (maxp = 1 -> out = []) ->
  cn (vc_total cf) bm (fun b => holders b out + f b)%nat ->
  exists bm' rem' out' p', direct_portions cf scan fuel first p minb maxp remain bm out = (bm', rem', out', p') /\
    cn (vc_total cf) bm' (fun b => holders b out' + f b)%nat /\
    (rem' + blocks out' = remain + blocks out /\ rem' <= remain) /\ (length out <= length out' <= 6)%nat /\
    (Forall (fun x => 0 < snd x) out -> Forall (fun x => 0 < snd x) out') /\
    p' < num_portions cf /\
    (remain <= minb -> out' = out \/ (length out' = S (length out) /\ rem' = 0)) /\
    (minb = 1 -> maxp = 6 -> (forall i, i < j -> full_portion cf bm ((first + i) mod num_portions cf)) ->
       rem' = 0 \/ length out' = 6%nat \/ forall i, i < num_portions cf -> full_portion cf bm' ((first + i) mod num_portions cf)).
Proof.
  intros cf scan Hs Hbpp. induction fuel as [|fuel IH];
    intros first p minb maxp remain bm out f j Hm Hl Hfp Hp Hj Hf0 Hmp Hm1 Hcn; cbn [direct_portions]; [lia|].
  set (np := num_portions cf) in *.
  assert (Hplt : p < np) by (rewrite Hp; apply N.mod_lt; lia).
  destruct (direct_rounds_ok _ _ Hs 7 bm (p * vc_bpp cf) (p * vc_bpp cf + vc_bpp cf - 1) minb remain out f)
    as [bm1 [rem1 [out1 [E [A [B [C [D [F [G H]]]]]]]]]]; auto; [lia|].
  cbv zeta. rewrite E.
  set (p1 := if rem1 =? 0 then p else if p + 1 =? np then 0 else p + 1).
  assert (Hp1 : p1 < np).
  { unfold p1. destruct (rem1 =? 0); [assumption|]. destruct (N.eqb_spec (p + 1) np); lia. }
  assert (Hmod : rem1 <> 0 -> p1 = (first + (j + 1)) mod np).
  { intros Hr. unfold p1. destruct (N.eqb_spec rem1 0); [contradiction|].
    rewrite N.add_assoc. rewrite <- N.add_mod_idemp_l by lia. rewrite <- Hp.
    destruct (N.eqb_spec (p + 1) np) as [->|]; [symmetry; apply N.mod_same; lia|]. symmetry. apply N.mod_small. lia. }
  assert (Hprog : minb = 1 -> (forall i, i < j -> full_portion cf bm ((first + i) mod np)) ->
     rem1 = 0 \/ length out1 = 6%nat \/ (forall i, i < j + 1 -> full_portion cf bm1 ((first + i) mod np))).
  { intros Hm' Hprev. destruct (H Hm') as [X|[X|X]]; auto. right. right. intros i Hi.
    destruct (N.eq_dec i j) as [->|Hne].
    - rewrite <- Hp. intros b Hb Ht. apply X; auto.
    - intros b Hb Ht. apply F. apply (Hprev i); auto. lia. }
  destruct (negb (rem1 =? 0) && negb (p1 =? first) && (N.of_nat (length out1) <? maxp)) eqn:Eg.
  - assert (Hr : rem1 <> 0) by lia. assert (Hpf : p1 <> first) by lia.
    assert (Hj2 : j + 1 <> np).
    { intros Hx. apply Hpf. rewrite (Hmod Hr), Hx.
      rewrite <- N.add_mod_idemp_r by lia. rewrite N.mod_same by lia. rewrite N.add_0_r. apply N.mod_small. lia. }
    destruct (IH first p1 minb maxp rem1 bm1 out1 f (j + 1)) as
      [bm' [rem' [out' [p' [E' [A' [B' [C' [D' [F' [G' H']]]]]]]]]]]; auto; try lia.
    { intros Hx. subst maxp. destruct out1; [reflexivity|]. cbn [length] in Eg. lia. }
    exists bm', rem', out', p'. split; [exact E'|]. ands; auto; try lia.
    + intros Hrm. destruct (G Hrm) as [->|[G1 G2]]; [|lia]. apply G'. lia.
    + intros Hm' Hmx Hprev. destruct (Hprog Hm' Hprev) as [X|[X|X]]; [lia|lia|]. apply H'; auto.
  - exists bm1, rem1, out1, p1. split; [reflexivity|]. ands; auto; try lia.
    intros Hm' Hmx Hprev. destruct (Hprog Hm' Hprev) as [X|[X|X]]; auto.
    destruct (N.eqb_spec rem1 0) as [|Hr]; [now left|].
    destruct (N.ltb_spec (N.of_nat (length out1)) maxp); [|right; left; lia].
    right. right. assert (Hpf : p1 = first) by (destruct (N.eqb_spec p1 first); [assumption|]; cbn in Eg; lia).
    intros i Hi. apply X.
    (* j + 1 = np *)
    assert (j + 1 = np); [|lia].
    assert (Hjl : j + 1 <= np) by lia.
    destruct (N.eq_dec (j + 1) np) as [|Hne]; [assumption|exfalso].
    rewrite (Hmod Hr) in Hpf.
    assert (Hd : first + (j + 1) < np \/ np <= first + (j + 1) < 2 * np) by lia.
    destruct Hd as [Hd|Hd].
    + rewrite N.mod_small in Hpf by lia. lia.
    + replace (first + (j + 1)) with ((first + (j + 1) - np) + 1 * np) in Hpf by lia.
      rewrite N.mod_add in Hpf by lia. rewrite N.mod_small in Hpf by lia. lia.
Qed.

Lemma all_full : forall cf bm first, 0 < vc_total cf -> 0 < vc_bpp cf -> first < num_portions cf ->
  (forall i, i < num_portions cf -> full_portion cf bm ((first + i) mod num_portions cf)) ->
  forall b, b < vc_total cf -> bm b = true.
Proof.
  intros cf bm first Ht Hb Hf H b Hbt. unfold num_portions in *. set (np := (vc_total cf - 1) / vc_bpp cf + 1) in *.
  set (q := b / vc_bpp cf).
  assert (Hq : q < np).
  { unfold q, np. pose proof (N.div_le_mono b (vc_total cf - 1) (vc_bpp cf)). lia. }
  assert (Hi : exists i, i < np /\ (first + i) mod np = q).
  { destruct (N.le_gt_cases first q) as [Hle|Hgt].
    - exists (q - first). split; [lia|]. replace (first + (q - first)) with q by lia. apply N.mod_small. exact Hq.
    - exists (np - first + q). split; [lia|]. replace (first + (np - first + q)) with (q + 1 * np) by lia.
      rewrite N.mod_add by lia. apply N.mod_small. exact Hq. }
  destruct Hi as [i [Hi1 Hi2]]. apply (H i Hi1); [|exact Hbt]. rewrite Hi2. unfold q.
  pose proof (N.div_mod b (vc_bpp cf)). pose proof (N.mod_lt b (vc_bpp cf)). nia.
Qed.

(** ** Allocation *)
Lemma cn_one_place : forall cf bm c al st live, one_place cf (VSt bm c al st) live <->
  (cn (vc_total cf) bm (fun b => holders b (cached c) + holders b live)%nat /\ al = blocks live).
Proof.
  intros. unfold one_place, cn. cbn [v_bm v_cache v_alloced]. split.
  - intros [A [B C]]. ands; auto.
  - intros [[A B] C]. ands; auto.
Qed.

Lemma legal_sweep_rqs : forall s ws, Forall (legal_sweep s) ws -> Forall (rqs_ok (length (v_cache s))) ws.
Proof.
  intros s ws H. eapply Forall_impl; [|exact H]. intros w [A B]. split; [|exact B].
  destruct (v_cache s); [congruence|discriminate].
Qed.

Lemma slab_req_legal : forall s nblks h, (0 < length (v_cache s) <= 16)%nat -> legal_alloc nblks h -> nblks <= highest_slab s ->
  legal_req (length (v_cache s)) (slab_req s nblks h).
Proof.
  intros s nblks h Hl [H1 H2] Hh. unfold legal_req, slab_req. cbn [r_nblks r_max r_contig r_min].
  assert (Hhs : highest_slab s = 2 ^ N.of_nat (length (v_cache s) - 1)).
  { unfold highest_slab. destruct (length (v_cache s)) as [|n]; [lia|]. now replace (S n - 1)%nat with n by lia. }
  rewrite Hhs in Hh. split; [exact Hh|]. split; [lia|]. right.
  rewrite !find_slab_spec by lia.
  assert (N.log2_up (h_min h) <= N.log2_up nblks) by (apply N.log2_up_le_mono; lia).
  assert (N.log2_up nblks <= N.of_nat (length (v_cache s) - 1)) by (apply N.log2_up_le_pow2; lia). lia.
Qed.

Definition alloc_post (cf : vcfg) (s : vst) (live : list ext) (nblks : N) (h : hints) (tries : list (list sweep))
  (s' : vst) (st : vstatus) (out : list ext) : Prop :=
    sane cf s' /\ length (v_cache s') = length (v_cache s) /\ (length out <= 6)%nat /\ Forall (fun x => 0 < snd x) out /\
    match st with
    | VSuccess => blocks out = nblks /\ one_place cf s' (out ++ live)
    | VPartial => h_partial h = true /\ 0 < blocks out < nblks /\ one_place cf s' (out ++ live)
    | _ => blocks out < nblks /\ (h_partial h = true \/ h_contig h = true -> out = []) /\ one_place cf s' live
    end /\
    (h_contig h = true -> h_partial h = false -> st = VSuccess -> length out = 1%nat) /\
    (h_contig h = false -> h_min h = 1 -> h_partial h = true \/ nblks <= 6 ->
     (vc_slabs cf = true /\ nblks <= highest_slab s /\ tries <> []) \/ cached (v_cache s) = [] ->
     st <> VSuccess -> length out = 6%nat \/ forall b, b < vc_total cf -> holders b (out ++ live) = 1%nat).

Lemma blocks_0 : forall l, Forall (fun x : ext => 0 < snd x) l -> blocks l = 0 -> l = [].
Proof. intros [|x l] H Hb; [reflexivity|]. inversion H; subst. cbn in Hb. lia. Qed.

Lemma alloc_ok : forall cf scan s live nblks h tries, scan_ok (vc_total cf) scan -> sane cf s -> one_place cf s live ->
  legal_alloc nblks h -> Forall (Forall (legal_sweep s)) tries ->
  exists s' st out, alloc cf scan s nblks h tries = Some (s', st, out) /\ alloc_post cf s live nblks h tries s' st out.
Proof.
  intros cf scan s live nblks h tries Hs [Ht [Hb [Hwf [H16 [Hsl Hst]]]]] Hone Hleg Htr.
  destruct s as [bm c al start]. cbn [v_cache v_start] in *. apply cn_one_place in Hone as [Hcn Hal].
  unfold alloc. cbn [v_bm v_cache v_start v_alloced].
  (* slab part *)
  assert (Hslab : exists bm1 c1 out1,
    (if vc_slabs cf && (nblks <=? highest_slab (VSt bm c al start))
     then slab_attempts cf scan (slab_req (VSt bm c al start) nblks h) h tries bm c []
     else Some (bm, c, [])) = Some (bm1, c1, out1) /\ wf c1 /\ length c1 = length c /\
    cn (vc_total cf) bm1 (fun b => holders b (cached c1) + (holders b out1 + holders b live))%nat /\
    (length out1 <= 6)%nat /\ blocks out1 <= nblks /\ Forall (fun x => 0 < snd x) out1 /\
    (h_contig h = true -> out1 = [] \/ (length out1 = 1%nat /\ blocks out1 = nblks)) /\
    (h_contig h = false -> h_min h = 1 -> h_partial h = true \/ nblks <= 6 ->
     (vc_slabs cf = true /\ nblks <= highest_slab (VSt bm c al start) /\ tries <> []) \/ cached c = [] ->
     blocks out1 = nblks \/ length out1 = 6%nat \/ cached c1 = [])).
  { destruct (vc_slabs cf && (nblks <=? highest_slab (VSt bm c al start))) eqn:Eu.
    - apply andb_prop in Eu as [Eu1 Eu2]. apply N.leb_le in Eu2.
      assert (Hl0 : (0 < length c)%nat) by (specialize (Hsl Eu1); destruct c; [congruence|simpl; lia]).
      edestruct (slab_attempts_ok cf scan (slab_req (VSt bm c al start) nblks h) h Hs eq_refl tries bm c)
        as [bm1 [c1 [out1 [A [B [C [D [E [F [G [I J]]]]]]]]]]]; [exact Hwf|exact H16| | | |exact Hl0|exact Hcn|].
      + apply slab_req_legal; cbn [v_cache]; auto.
      + cbn [slab_req r_nblks]. destruct Hleg. lia.
      + eapply Forall_impl; [|exact Htr]. intros ws Hws. now apply legal_sweep_rqs in Hws.
      + cbn [slab_req r_nblks r_contig r_min] in *. exists bm1, c1, out1. ands; auto.
        intros X1 X2 X3 X4. destruct X4 as [[_ [_ X4]]|X4].
        * destruct J as [Y|[Y|Y]]; auto; [rewrite X2; reflexivity|]. right. right. unfold cached. now rewrite Y.
        * destruct tries as [|w tr].
          -- cbn [slab_attempts] in A. injection A as <- <- <-. auto.
          -- destruct J as [Y|[Y|Y]]; auto; [rewrite X2; reflexivity|discriminate|]. right. right. unfold cached. now rewrite Y.
    - exists bm, c, []. cbn [length blocks fold_right]. ands; auto; try lia.
      intros _ _ _ [[X1 [X2 _]]|X]; [|auto]. rewrite X1 in Eu. cbn in Eu. lia. }
  destruct Hslab as [bm1 [c1 [out1 [A [B [C [D [E [F [G [I J]]]]]]]]]]]. rewrite A. clear A.
  assert (Hsane : forall bm' al' p', p' < num_portions cf -> sane cf (VSt bm' c1 al' p')).
  { intros bm' al' p' Hp'. unfold sane. cbn [v_cache v_start]. ands; auto; [lia|].
    intros X ->. specialize (Hsl X). destruct c; [congruence|discriminate]. }
  destruct Hleg as [L1 L2].
  destruct (N.leb_spec nblks (blocks out1)) as [Hfull|Hmore].
  { eexists _, _, _. split; [reflexivity|]. unfold alloc_post. cbn [v_cache]. ands; auto; try lia; try congruence.
    - apply cn_one_place. split; [|rewrite blocks_app; lia]. eapply cn_ext; [|exact D]. intros b. cbn beta. rewrite holders_app. lia.
    - intros X _ _. destruct (I X) as [->|[Y _]]; [cbn in Hfull; lia|exact Y]. }
  unfold alloc_direct.
  set (minb := if h_contig h && negb (h_partial h) then nblks - blocks out1 else N.min (nblks - blocks out1) (h_min h)).
  set (maxp := if h_contig h then 1 else 6).
  assert (Hnp : 0 < num_portions cf) by (unfold num_portions; rewrite N.add_1_r; apply N.lt_0_succ).
  destruct (direct_portions_ok cf scan Hs Hb (N.to_nat (num_portions cf)) start start minb maxp (nblks - blocks out1) bm1 out1
             (fun b => holders b (cached c1) + holders b live)%nat 0)
    as [bm2 [rem [out2 [p [P1 [P2 [P3 [P4 [P5 [P6 [P7 P8]]]]]]]]]]]; auto; try lia.
  { unfold minb. destruct (h_contig h && negb (h_partial h)); lia. }
  { rewrite N.add_0_r. symmetry. now apply N.mod_small. }
  { unfold maxp. destruct (h_contig h); lia. }
  { unfold maxp. destruct (h_contig h) eqn:X; [|discriminate]. intros _. destruct (I eq_refl) as [Y|[_ Y]]; [exact Y|lia]. }
  { eapply cn_ext; [|exact D]. intros b. cbn beta. lia. }
  rewrite P1. assert (Hgot : blocks out1 + (nblks - blocks out1 - rem) = blocks out2) by lia.
  rewrite Hgot. assert (Hle : blocks out2 <= nblks) by lia.
  assert (Hcontig : h_contig h = true -> h_partial h = false -> blocks out2 = nblks -> length out2 = 1%nat).
  { intros X1 X2 X3. destruct (I X1) as [Y|[_ Y]]; [subst out1|lia].
    destruct P7 as [Y|[Y _]]; [|subst out2; cbn in X3; lia|exact Y].
    unfold minb. rewrite X1, X2. cbn. lia. }
  assert (Hcomp : h_contig h = false -> h_min h = 1 -> h_partial h = true \/ nblks <= 6 ->
     (vc_slabs cf = true /\ nblks <= highest_slab (VSt bm c al start) /\ tries <> []) \/ cached c = [] ->
     blocks out2 <> nblks -> length out2 = 6%nat \/ forall b, b < vc_total cf -> holders b (out2 ++ live) = 1%nat).
  { intros X1 X2 X3 X4 X5. destruct (J X1 X2 X3 X4) as [Y|[Y|Y]]; [lia|left; lia|].
    assert (Hm1 : minb = 1) by (unfold minb; rewrite X1, X2; cbn; lia).
    destruct (P8 Hm1) as [Z|[Z|Z]]; [unfold maxp; now rewrite X1|intros i Hi; lia|lia|now left|].
    right. intros b Hbt. pose proof (all_full cf bm2 start Ht Hb Hst Z b Hbt) as Hset.
    destruct P2 as [P2 _]. specialize (P2 b Hbt). rewrite Hset, Y, holders_nil in P2. rewrite holders_app. lia. }
  destruct (N.eqb_spec (blocks out2) nblks) as [Hdone|Hnot].
  { eexists _, _, _. split; [reflexivity|]. unfold alloc_post. cbn [v_cache]. ands; auto; try lia; try congruence.
    apply cn_one_place. split; [|rewrite blocks_app; lia]. eapply cn_ext; [|exact P2]. intros b. cbn beta. rewrite holders_app. lia. }
  destruct (negb (blocks out2 =? 0) && h_partial h) eqn:Ep.
  { apply andb_prop in Ep as [Ep1 Ep2]. apply negb_true_iff, N.eqb_neq in Ep1. eexists _, _, _. split; [reflexivity|]. unfold alloc_post. cbn [v_cache]. ands; auto; try lia; try congruence.
    apply cn_one_place. split; [|rewrite blocks_app; lia]. eapply cn_ext; [|exact P2]. intros b. cbn beta. rewrite holders_app. lia. }
  destruct (free_direct_ok out2 (vc_total cf) bm2 (fun b => holders b (cached c1) + holders b live)%nat) as [bm3 [Q1 Q2]].
  { exact P2. }
  rewrite Q1. eexists _, _, _. split; [reflexivity|]. unfold alloc_post. cbn [v_cache].
  assert (Hone3 : one_place cf (VSt bm3 c1 al p) live) by (apply cn_one_place; auto).
  assert (Hp0 : h_partial h = true \/ h_contig h = true -> out2 = []).
  { intros X. destruct (h_partial h) eqn:X2.
    - rewrite andb_true_r in Ep. apply blocks_0; auto. lia.
    - destruct X as [X|X]; [discriminate|]. destruct (I X) as [Y|[_ Y]]; [subst out1|lia].
      destruct P7 as [Y|[_ Y]]; [|exact Y|lia]. unfold minb. rewrite X. cbn. lia. }
  ands; auto; try lia.
  - destruct (h_contig h); ands; auto; lia.
  - intros X1 X2 X3. rewrite X1 in X3. discriminate.
Qed.

(** ** Free *)
Lemma drop_nth_perm : forall A i (l : list A) x, nth_error l i = Some x -> Permutation l (x :: drop_nth i l).
Proof.
  intros A i l x H. unfold drop_nth. apply nth_error_split in H as [l1 [l2 [-> <-]]].
  rewrite firstn_app_exact by reflexivity.
  replace (skipn (S (length l1)) (l1 ++ x :: l2)) with l2.
  2: { change (x :: l2) with ([x] ++ l2). rewrite app_assoc. symmetry. apply skipn_app_exact. rewrite app_length. simpl. lia. }
  symmetry. apply Permutation_middle.
Qed.
Lemma blocks_perm : forall l l', Permutation l l' -> blocks l = blocks l'.
Proof. induction 1; simpl; lia. Qed.

Lemma free_ok : forall cf s live x rest, sane cf s -> one_place cf s live -> Permutation live (x :: rest) ->
  exists s', free cf s [x] = Some s' /\ sane cf s' /\ length (v_cache s') = length (v_cache s) /\ one_place cf s' rest.
Proof.
  intros cf s live x rest [Ht [Hb [Hwf [H16 [Hsl Hst]]]]] Hone Hp. destruct s as [bm c al start]. cbn [v_cache v_start] in *.
  apply cn_one_place in Hone as [Hcn Hal]. rewrite (blocks_perm _ _ Hp) in Hal. cbn [blocks fold_right] in Hal. fold (blocks rest) in Hal.
  assert (Hcn2 : cn (vc_total cf) bm (fun b => holders b (cached c) + (holders b [x] + holders b rest))%nat).
  { eapply cn_ext; [|exact Hcn]. intros b. cbn beta. rewrite (holders_perm b _ _ Hp). rewrite !holders_cons, holders_nil. lia. }
  unfold free. cbn [v_bm v_cache v_start v_alloced blocks fold_right].
  destruct (vc_slabs cf && (snd x <=? highest_slab (VSt bm c al start))) eqn:Eu.
  - apply andb_prop in Eu as [Eu1 Eu2]. apply N.leb_le in Eu2.
    assert (Hl0 : (0 < length c)%nat) by (specialize (Hsl Eu1); destruct c; [congruence|simpl; lia]).
    destruct (pow16 _ Hl0 H16) as [Hp1 Hp2].
    assert (Hhs : highest_slab (VSt bm c al start) = 2 ^ N.of_nat (length c - 1)).
    { unfold highest_slab. cbn [v_cache]. destruct (length c) as [|n]; [lia|]. now replace (S n - 1)%nat with n by lia. }
    cbn [free_slab_pieces].
    destruct (try_free_holders c (Entry (fst x) (snd x) 2) [] Hwf) as [c1 [ex [A [B [C D]]]]]; cbn [e_cnt]; try lia.
    rewrite A, ent_exts.
    destruct (free_direct_ok (exts ex) (vc_total cf) bm (fun b => holders b (cached c1) + holders b rest)%nat) as [bm1 [F G]].
    { eapply cn_ext; [|exact Hcn2]. intros b. cbn beta. specialize (D b). cbn [exts map] in D. rewrite holders_nil in D.
      unfold ext_of in D. cbn [e_num e_cnt] in D. destruct x. cbn [fst snd] in D. lia. }
    rewrite F. eexists. split; [reflexivity|]. cbn [v_cache]. ands; auto.
    + unfold sane. cbn [v_cache v_start]. ands; auto; [lia|]. intros _ ->. simpl in C. lia.
    + apply cn_one_place. split; [exact G|]. lia.
  - destruct (free_direct_ok [x] (vc_total cf) bm (fun b => holders b (cached c) + holders b rest)%nat) as [bm1 [F G]].
    { eapply cn_ext; [|exact Hcn2]. intros b. cbn beta. lia. }
    rewrite F. eexists. split; [reflexivity|]. cbn [v_cache]. ands; auto.
    + unfold sane. cbn [v_cache v_start]. ands; auto.
    + apply cn_one_place. split; [exact G|]. lia.
Qed.

Lemma sweep_ok : forall cf scan s live ws, scan_ok (vc_total cf) scan -> sane cf s -> one_place cf s live ->
  Forall (legal_sweep s) ws ->
  exists s', do_sweep cf scan s ws = Some s' /\ sane cf s' /\ length (v_cache s') = length (v_cache s) /\ one_place cf s' live.
Proof.
  intros cf scan s live ws Hs [Ht [Hb [Hwf [H16 [Hsl Hst]]]]] Hone Hws. apply legal_sweep_rqs in Hws.
  destruct s as [bm c al start]. cbn [v_cache v_start] in *.
  apply cn_one_place in Hone as [Hcn Hal]. unfold do_sweep. cbn [v_bm v_cache v_start v_alloced].
  destruct (fill_cache_ok cf scan Hs ws bm c (fun b => holders b live) Hwf Hws Hcn) as [bm1 [c1 [A [B [C D]]]]].
  rewrite A. eexists. split; [reflexivity|]. cbn [v_cache]. ands; auto.
  - unfold sane. cbn [v_cache v_start]. ands; auto; [lia|].
    intros X ->. specialize (Hsl X). destruct c; [congruence|discriminate].
  - apply cn_one_place. auto.
Qed.

Lemma legal_vop_len : forall s s' o, length (v_cache s') = length (v_cache s) -> legal_vop s o -> legal_vop s' o.
Proof.
  intros s s' o Hl. assert (Hw : forall w, legal_sweep s w -> legal_sweep s' w).
  { intros w [A B]. split; [|lia]. intros E. rewrite E in Hl. destruct (v_cache s); [congruence|discriminate]. }
  destruct o; cbn [legal_vop]; auto.
  - intros [A B]. split; [exact A|]. eapply Forall_impl; [|exact B]. intros ws X. eapply Forall_impl; [|exact X]. exact Hw.
  - intros X. eapply Forall_impl; [|exact X]. exact Hw.
Qed.

Lemma vstep_ok : forall cf scan s live o, scan_ok (vc_total cf) scan -> sane cf s -> one_place cf s live -> legal_vop s o ->
  exists s' live', vstep cf scan s live o = Some (s', live') /\ sane cf s' /\ length (v_cache s') = length (v_cache s) /\
    one_place cf s' live'.
Proof.
  intros cf scan s live o Hs Hsane Hone Hleg. destruct o as [nblks h tries|i|i k|ws]; cbn [vstep legal_vop] in *.
  - destruct Hleg as [L1 L2].
    destruct (alloc_ok cf scan s live nblks h tries Hs Hsane Hone L1 L2) as [s' [st [out [E [A [B [C [D [F _]]]]]]]]].
    rewrite E. destruct st; eexists _, _; (split; [reflexivity|]); ands; auto; apply F.
  - destruct (nth_error live i) as [x|] eqn:En; [|eexists _, _; split; [reflexivity|]; ands; auto].
    destruct (free_ok cf s live x (drop_nth i live) Hsane Hone (drop_nth_perm _ _ _ _ En)) as [s' [E [A [B C]]]].
    rewrite E. eexists _, _. split; [reflexivity|]. ands; auto.
  - destruct (nth_error live i) as [[a n]|] eqn:En; [|eexists _, _; split; [reflexivity|]; ands; auto].
    destruct (N.ltb_spec k n); eexists _, _; (split; [reflexivity|]); ands; auto.
    pose proof (drop_nth_perm _ _ _ _ En) as Hp. destruct Hone as [A [B C]].
    assert (Hh : forall b, holders b ((a, k) :: (a + k, n - k) :: drop_nth i live) = holders b live).
    { intros b. rewrite (holders_perm b _ _ Hp), !holders_cons. pose proof (inside_split b a k n). lia. }
    unfold one_place. ands.
    + intros b Hb. rewrite Hh. auto.
    + intros b Hb. rewrite Hh. auto.
    + rewrite C, (blocks_perm _ _ Hp). cbn [blocks fold_right snd]. lia.
  - destruct (sweep_ok cf scan s live ws Hs Hsane Hone Hleg) as [s' [E [A [B C]]]]. rewrite E.
    eexists _, _. split; [reflexivity|]. ands; auto.
Qed.

Lemma c12_history_lemma : forall cf scan ops s live, scan_ok (vc_total cf) scan -> sane cf s -> one_place cf s live ->
  Forall (legal_vop s) ops ->
  exists s' live', vrun cf scan s live ops = Some (s', live') /\ sane cf s' /\ one_place cf s' live'.
Proof.
  intros cf scan ops. induction ops as [|o ops IH]; intros s live Hs Hsane Hone Hleg; cbn [vrun].
  { eexists _, _. split; [reflexivity|]. auto. }
  inversion Hleg as [|? ? H1 H2]; subst.
  destruct (vstep_ok cf scan s live o Hs Hsane Hone H1) as [s1 [l1 [E [A [B C]]]]]. rewrite E.
  apply IH; auto. eapply Forall_impl; [|exact H2]. intros o' Ho'. now apply (legal_vop_len s).
Qed.

(** No block is held twice. *)
Lemma c12_disjoint_lemma : forall cf s live, one_place cf s live ->
  forall b, (holders b live <= 1)%nat /\ (holders b live = 1%nat -> b < vc_total cf).
Proof.
  intros cf s live [A [B _]] b. destruct (N.lt_ge_cases b (vc_total cf)) as [H|H].
  - specialize (A b H). split; [lia|auto].
  - specialize (B b H). split; lia.
Qed.

(** ** First fit meets the scan contract *)
Lemma run_len_spec : forall m bm s, run_len bm s m <= N.of_nat m /\ (forall b, s <= b < s + run_len bm s m -> bm b = false) /\
  (bm s = false -> (0 < m)%nat -> 0 < run_len bm s m).
Proof.
  induction m as [|m IH]; intros bm s; cbn [run_len].
  - split; [lia|]. split; [intros; lia|lia].
  - destruct (bm s) eqn:E.
    + split; [lia|]. split; [intros; lia|congruence].
    + destruct (IH bm (s + 1)) as [A [B _]]. split; [lia|]. split; [|lia].
      intros b Hb. destruct (N.eq_dec b s) as [->|Hne]; [exact E|]. apply B. lia.
Qed.
Lemma scan_from_spec : forall left bm s0 minb maxb s n, scan_from bm s0 left minb maxb = (s, n) -> 0 < minb -> minb <= maxb ->
  (n = 0 \/ (s0 <= s /\ s + n <= s0 + N.of_nat left /\ minb <= n <= maxb /\ forall b, s <= b < s + n -> bm b = false)) /\
  (minb = 1 -> forall b, s0 <= b < s0 + N.of_nat left -> n = 0 \/ b < s -> bm b = true).
Proof.
  induction left as [|left IH]; intros bm s0 minb maxb s n H Hm1 Hm2; cbn [scan_from] in H.
  - injection H as <- <-. split; [now left|]. intros _ b Hb. lia.
  - cbv zeta in H. set (r := run_len bm s0 (N.to_nat (N.min (N.of_nat (S left)) maxb))) in *.
    destruct (run_len_spec (N.to_nat (N.min (N.of_nat (S left)) maxb)) bm s0) as [A [B C]]. fold r in A, B, C.
    destruct (N.leb_spec minb r).
    + injection H as <- <-. split; [right; ands; auto; lia|]. intros _ b Hb [X|X]; lia.
    + apply IH in H; auto. destruct H as [D E]. split.
      * destruct D as [D|[D1 [D2 [D3 D4]]]]; [now left|]. right. ands; auto; lia.
      * intros -> b Hb Hn. destruct (N.eq_dec b s0) as [->|Hne].
        -- destruct (bm s0) eqn:Eb; [reflexivity|]. exfalso. specialize (C eq_refl). lia.
        -- apply E; auto. lia.
Qed.
Lemma first_fit_ok : forall total, scan_ok total (first_fit total).
Proof.
  intros total bm cur en minb maxb s n H H1 H2. unfold first_fit in H.
  apply scan_from_spec in H; auto. destruct H as [A B]. split.
  - destruct A as [A|[A1 [A2 [A3 A4]]]]; [now left|]. right. ands; auto; try lia.
  - intros Hm b Hb Ht Hn. apply B; auto. lia.
Qed.
