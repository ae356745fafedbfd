(** * Allocation over the chunks of a virtual device: C125-C127 and C68. *)
From Coq Require Import Arith NArith List Bool Lia Permutation.
From Verif Require Import Base SlabModel SlabSpec ExtSpec ExtFacts BitmapModel VarsizeModel VarsizeSpec VarsizeProofs AppendModel.
From Verif Require Import VdevAllocModel VdevAllocSpec VdevAllocProofs.
Import ListNotations.
Local Open Scope N_scope.

(** C125: with allocators that leave nothing behind when they fail.  The chunks are asked in turn
    ([l1], then [c]); those of [l1] refused and hold what they held; the blocks are all of [c] and
    are new there; the other chunks ([l2]) are not touched and are asked first next time.  A failed
    allocation leaves all chunks as they were and means that every one refused, unless the caller
    wanted one chunk to be asked only. *)
Theorem c125_alloc A (alc : A -> N -> list ext -> option (A * status * list ext)) fre pok look chunks ok holds n live st idx :
  lawful alc fre pok ok holds -> ok n -> NoDup chunks -> chunks <> [] ->
  (forall c, In c chunks -> holds (st c) (live c)) ->
  exists st' idx' s o l1 c l2, alloc_blks alc fre pok look chunks st idx n none = Some (st', idx', s, o) /\
    turn chunks idx = l1 ++ c :: l2 /\ turn chunks idx' = l2 ++ l1 ++ [c] /\
    (forall x, In x l1 -> refuses alc pok (st x) n /\ holds (st' x) (live x)) /\
    (forall x, ~ In x l1 -> x <> c -> st' x = st x) /\
    (look = false -> l1 = []) /\
    match s with
    | Success => o_chunk o = c /\ blocks (o_pieces o) = n /\ holds (st' c) (o_pieces o ++ live c)
    | Partial => pok = true /\ o_chunk o = c /\ 0 < blocks (o_pieces o) < n /\ holds (st' c) (o_pieces o ++ live c)
    | Fail => o = none /\ holds (st' c) (live c) /\ refuses alc pok (st c) n /\ (look = true -> l2 = [])
    end.
Proof. intros L Hn Hd Hne Hh. eapply alloc_blks_ok; eauto. Qed.
Print Assumptions c125_alloc.

Theorem c125_fails_only_if_all_refuse A (alc : A -> N -> list ext -> option (A * status * list ext)) fre pok chunks ok holds n live st idx st' idx' o :
  lawful alc fre pok ok holds -> ok n -> NoDup chunks -> chunks <> [] ->
  (forall c, In c chunks -> holds (st c) (live c)) ->
  alloc_blks alc fre pok true chunks st idx n none = Some (st', idx', Fail, o) ->
  o = none /\ forall c, In c chunks -> refuses alc pok (st c) n /\ holds (st' c) (live c).
Proof.
  intros L Hn Hd Hne Hh E.
  destruct (c125_alloc A alc fre pok true chunks ok holds n live st idx L Hn Hd Hne Hh)
    as (st1 & i1 & s & o1 & l1 & c & l2 & E1 & Et & _ & R & O & _ & P).
  rewrite E in E1. injection E1 as <- <- <- <-. destruct P as (-> & P1 & P2 & P3). split; [reflexivity|].
  intros x Hx. apply (turn_perm chunks idx) in Hx. rewrite Et, (P3 eq_refl) in Hx.
  apply in_app_iff in Hx. destruct Hx as [Hx|[<-|[]]]; auto.
Qed.
Print Assumptions c125_fails_only_if_all_refuse.

(** The append allocator is one. *)
Definition append_holds (a : ast) (l : list ext) : Prop :=
  a_last a <= a_total a /\ a_total a < 2 ^ 32 /\
  Forall (fun x => fst x + snd x <= a_last a) l /\ forall b, (holders b l <= 1)%nat.
Lemma not_held l m : Forall (fun x : ext => fst x + snd x <= m) l -> forall b, m <= b -> holders b l = 0%nat.
Proof.
  induction 1 as [|x l Hx _ IH]; intros b Hb; [reflexivity|]. rewrite holders_cons, IH by assumption.
  unfold inside. destruct ((fst x <=? b) && (b <? fst x + snd x)) eqn:E; lia.
Qed.
Theorem c125_append pok : lawful append_alc append_fre pok (fun n => 0 < n) append_holds.
Proof.
  constructor.
  - intros a l n (H1 & H2 & H3 & H4) Hn. unfold append_alc, alloc, alloc_check, avail_after_reserve.
    destruct (N.ltb_spec (available_blks a) n) as [Hl|Hl].
    { eexists a, Fail, []. split; [reflexivity|]. split; [reflexivity|]. repeat split; auto. }
    destruct (N.ltb_spec 65535 n).
    { eexists a, Fail, []. split; [reflexivity|]. split; [reflexivity|]. repeat split; auto. }
    eexists _, Success, [(a_last a, n)]. split; [reflexivity|]. split; [discriminate|]. split; [cbn; lia|].
    assert (Ha : available_blks a = a_total a - a_last a).
    { unfold available_blks, w32. change (2 ^ 32) with 4294967296 in H2.
      replace (a_total a + 4294967296 - a_last a) with ((a_total a - a_last a) + 1 * 4294967296) by lia.
      rewrite N.mod_add by lia. apply N.mod_small. lia. }
    assert (Hw : w32 (a_last a + n) = a_last a + n).
    { unfold w32. apply N.mod_small. change (2 ^ 32) with 4294967296 in H2. lia. }
    unfold append_holds. cbn [a_last a_total]. rewrite Hw. repeat split; [lia|exact H2| |].
    + cbn. constructor; [cbn; lia|]. eapply Forall_impl; [|exact H3]. cbn. intros x Hx. lia.
    + intros b. cbn [app]. rewrite holders_cons. destruct (inside b (a_last a, n)) eqn:E; [|apply H4].
      unfold inside in E. cbn [fst snd] in E. rewrite (not_held l _ H3) by lia. lia.
  - intros a l l' (H1 & H2 & H3 & H4) P. split; [exact H1|]. split; [exact H2|]. split.
    + eapply Forall_perm; eassumption.
    + intros b. rewrite <- (holders_perm b _ _ P). apply H4.
Qed.
Print Assumptions c125_append.

(** The variable size allocator is one for contiguous requests and for those that may be answered in
    part. *)
Definition varsize_holds (cf : vcfg) (k : nat) (s : vst) (l : list ext) : Prop :=
  sane cf s /\ one_place cf s l /\ length (v_cache s) = k.
Definition varsize_fre (cf : vcfg) (s : vst) (p : list ext) : option vst := VarsizeModel.free cf s p.

Lemma onto_nil cf scan h tries s n : varsize_onto cf scan h tries s n [] =
  match VarsizeModel.alloc cf scan s n h tries with
  | Some (s', VSuccess, o) => Some (s', Success, o)
  | Some (s', VPartial, o) => Some (s', Partial, o)
  | Some (s', _, o) => Some (s', Fail, o)
  | None => None
  end.
Proof.
  unfold varsize_onto, VarsizeModel.alloc.
  destruct (if vc_slabs cf && (n <=? highest_slab s) then _ else _) as [[[bm1 c1] out1]|]; [|reflexivity].
  change (blocks []) with 0. rewrite N.sub_0_r.
  destruct (n <=? blocks out1); [reflexivity|].
  destruct (alloc_direct cf scan (n - blocks out1) h bm1 (v_start s) out1) as [[[bm2 rem] out2] p].
  destruct (_ =? n); [reflexivity|]. destruct (_ && h_partial h); [reflexivity|].
  destruct (free_direct bm2 out2); [|reflexivity]. destruct (h_contig h); reflexivity.
Qed.

Lemma one_place_perm cf s l l' : one_place cf s l -> Permutation l l' -> one_place cf s l'.
Proof.
  intros (H1 & H2 & H3) P. split; [|split].
  - intros b Hb. rewrite <- (holders_perm b _ _ P). now apply H1.
  - intros b Hb. rewrite <- (holders_perm b _ _ P). now apply H2.
  - rewrite H3. clear -P. induction P; cbn; unfold blocks in *; lia.
Qed.

Theorem c125_varsize cf scan h tries k :
  scan_ok (vc_total cf) scan -> h_contig h = true \/ h_partial h = true ->
  (forall s, length (v_cache s) = k -> Forall (Forall (legal_sweep s)) tries) ->
  lawful (varsize_onto cf scan h tries) (varsize_fre cf) (h_partial h) (fun n => legal_alloc n h) (varsize_holds cf k).
Proof.
  intros Hs Hh Ht. constructor.
  - intros s l n (H1 & H2 & H3) Hn. rewrite onto_nil.
    destruct (alloc_ok cf scan s l n h tries Hs H1 H2 Hn (Ht s H3)) as (s' & st & o & E & B & C & D & F & G & _).
    rewrite E. destruct st.
    + exists s', Success, o. split; [reflexivity|]. destruct G as [G1 G2]. split.
      { intros ->. cbn in G1. destruct Hn. lia. }
      split; [exact G1|]. split; [exact B|]. split; [exact G2|congruence].
    + exists s', Partial, o. split; [reflexivity|]. destruct G as (G0 & G1 & G2). split; [exact G1|].
      rewrite G0. split; [exact B|]. split; [exact G2|congruence].
    + exists s', Fail, o. split; [reflexivity|]. destruct G as (_ & G1 & G2). split; [apply G1; tauto|].
      split; [exact B|]. split; [exact G2|congruence].
    + exists s', Fail, o. split; [reflexivity|]. destruct G as (_ & G1 & G2). split; [apply G1; tauto|].
      split; [exact B|]. split; [exact G2|congruence].
  - intros s l l' (H1 & H2 & H3) P. split; [exact H1|]. split; [|exact H3]. eapply one_place_perm; eauto.
Qed.
Print Assumptions c125_varsize.

(** Three append chunks of 10, 3 and 8 blocks; the selector's index is at the second. *)
Definition ex_chunks : list N := [4; 7; 5].
Definition ex_st (c : N) : ast := fresh_alloc (if c =? 4 then 10 else if c =? 7 then 3 else 8).
Definition seen {A} (r : option ((N -> A) * nat * status * out)) : option (nat * status * out) :=
  match r with Some (_, i, s, o) => Some (i, s, o) | None => None end.
Example c125_nonvacuous :
  NoDup ex_chunks /\ (forall c, In c ex_chunks -> append_holds (ex_st c) []) /\
  seen (alloc_blks append_alc append_fre false true ex_chunks ex_st 1 9 none) = Some (1%nat, Success, Out 4 [(0, 9)]) /\
  seen (alloc_blks append_alc append_fre false true ex_chunks ex_st 1 11 none) = Some (1%nat, Fail, none) /\
  seen (alloc_blks append_alc append_fre false false ex_chunks ex_st 1 9 none) = Some (2%nat, Fail, none).
Proof.
  split; [repeat constructor; cbn; lia|]. split; [|repeat split; vm_compute; reflexivity].
  intros c _. unfold append_holds, ex_st, fresh_alloc. cbn [a_last a_total].
  split; [lia|]. split; [|split; [constructor|intros b; cbn; lia]].
  destruct (c =? 4); [reflexivity|]. destruct (c =? 7); reflexivity.
Qed.

(** C126: the same for requests that may be scattered and must be answered in full (the default
    hints). *)
Definition alloc_is_safe (h : hints) : Prop :=
  forall cf scan tries k chunks live st idx n,
  scan_ok (vc_total cf) scan -> legal_alloc n h -> NoDup chunks -> chunks <> [] ->
  (forall s, length (v_cache s) = k -> Forall (Forall (legal_sweep s)) tries) ->
  (forall c, In c chunks -> varsize_holds cf k (st c) (live c)) ->
  exists st' idx' s o, alloc_blks (varsize_onto cf scan h tries) (varsize_fre cf) (h_partial h) true chunks st idx n none = Some (st', idx', s, o) /\
    (s = Fail -> forall c, In c chunks -> varsize_holds cf k (st' c) (live c)).

(** It holds for the requests of C125, *)
Theorem c126_contiguous_or_partial_safe h : h_contig h = true \/ h_partial h = true -> alloc_is_safe h.
Proof.
  intros Hh cf scan tries k chunks live st idx n Hs Hn Hd Hne Ht Hl.
  pose proof (c125_varsize cf scan h tries k Hs Hh Ht) as L.
  destruct (c125_alloc _ _ _ _ true chunks _ _ n live st idx L Hn Hd Hne Hl)
    as (st1 & i1 & s & o1 & l1 & c & l2 & E1 & _).
  exists st1, i1, s, o1. split; [exact E1|]. intros -> x Hx.
  exact (proj2 (proj2 (c125_fails_only_if_all_refuse _ _ _ _ chunks _ _ n live st idx _ _ _ L Hn Hd Hne Hl E1) x Hx)).
Qed.
Print Assumptions c126_contiguous_or_partial_safe.

(** but a chunk that fails leaves pieces in the id.  If the next chunk has room the process ends; if
    it has not, blocks with the same numbers there are freed though they are in use. *)
Definition cfx : vcfg := VCfg 32 16 true.
Definition slabsx : cache := [Slab 1 [Level 4 []]; Slab 2 [Level 4 []]; Slab 4 [Level 2 []]].
Definition usedx (n : N) : vst := VSt (fun b => b <? n) slabsx n 0.
Definition scattered : hints := Hints 0 false false 1.
Lemma slabsx_wf : wf slabsx.
Proof.
  intros [|[|[|i]]] s H; simpl in H; try (destruct i; discriminate); injection H as <-;
    (split; [reflexivity|]; split; [discriminate|]; repeat constructor).
Qed.
Lemma usedx_holds n : 0 < n <= 32 -> varsize_holds cfx 3 (usedx n) [(0, n)].
Proof.
  intros Hn. split; [|split; [|reflexivity]].
  - unfold sane, usedx, cfx. cbn [vc_total vc_bpp v_cache v_start vc_slabs].
    ands; try exact slabsx_wf; try lia; try discriminate; try (simpl; lia); vm_compute; reflexivity.
  - unfold one_place, usedx, cfx. cbn [vc_total v_cache v_bm v_alloced].
    change (cached slabsx) with (@nil ext). ands; [| |cbn; lia]; intros b Hb;
      rewrite holders_cons, !holders_nil; unfold inside; cbn [fst snd];
      destruct (N.ltb_spec b n); destruct ((0 <=? b) && (b <? 0 + n)) eqn:E; lia.
Qed.
Definition stx (n : N) (c : N) : vst := if c =? 1 then usedx 30 else usedx n.
Definition livex (n : N) (c : N) : list ext := if c =? 1 then [(0, 30)] else [(0, n)].
Lemma stx_holds n : 0 < n <= 32 -> forall c, In c [1; 2] -> varsize_holds cfx 3 (stx n c) (livex n c).
Proof.
  intros Hn c _. unfold stx, livex. destruct (c =? 1); apply usedx_holds; lia.
Qed.
Lemma triesx : forall s : vst, length (v_cache s) = 3%nat -> Forall (Forall (legal_sweep s)) [[]].
Proof. intros s _. repeat constructor. Qed.

Theorem c126_scattered_aborts_refuted : ~ alloc_is_safe scattered.
Proof.
  intros H.
  destruct (H cfx (first_fit 32) [[]] 3%nat [1; 2] (livex 8) (stx 8) 0%nat 4) as (st' & i & s & o & E & _).
  - apply first_fit_ok.
  - unfold legal_alloc; cbn; lia.
  - repeat constructor; cbn; lia.
  - discriminate.
  - exact triesx.
  - apply stx_holds. lia.
  - assert (X : alloc_blks (varsize_onto cfx (first_fit 32) scattered [[]]) (varsize_fre cfx) (h_partial scattered) true [1; 2] (stx 8) 0 4 none = None)
      by (vm_compute; reflexivity).
    rewrite X in E. discriminate.
Qed.
Print Assumptions c126_scattered_aborts_refuted.

Definition bit2 (r : option ((N -> vst) * nat * status * out)) (b : N) : option bool :=
  match r with Some (st, _, Fail, _) => Some (v_bm (st 2) b) | _ => None end.
Theorem c126_scattered_frees_others_refuted :
  (forall c, In c [1; 2] -> varsize_holds cfx 3 (stx 32 c) (livex 32 c)) /\
  exists st' i o, alloc_blks (varsize_onto cfx (first_fit 32) scattered [[]]) (varsize_fre cfx) false true [1; 2] (stx 32) 0 4 none = Some (st', i, Fail, o) /\
    v_bm (st' 2) 30 = false /\ ~ varsize_holds cfx 3 (st' 2) (livex 32 2).
Proof.
  split; [apply stx_holds; lia|].
  assert (X : bit2 (alloc_blks (varsize_onto cfx (first_fit 32) scattered [[]]) (varsize_fre cfx) false true [1; 2] (stx 32) 0 4 none) 30 = Some false)
    by (vm_compute; reflexivity).
  destruct (alloc_blks (varsize_onto cfx (first_fit 32) scattered [[]]) (varsize_fre cfx) false true [1; 2] (stx 32) 0 4 none)
    as [[[[st' i] s] o]|]; [|discriminate].
  destruct s; cbn [bit2] in X; try discriminate. injection X as X.
  exists st', i, o. split; [reflexivity|]. split; [exact X|].
  intros (_ & (H & _) & _). specialize (H 30). rewrite X in H.
  assert (Hb : 30 < vc_total cfx) by reflexivity. specialize (H Hb).
  change (holders 30 (livex 32 2)) with 1%nat in H. lia.
Qed.
Print Assumptions c126_scattered_frees_others_refuted.

(** C127: the call that fills a vector.  What it returns with success is as many blocks as asked for,
    all of them new in their chunks. *)
Definition taken_from {A} (holds : A -> list ext -> Prop) (chunks : list N) (st : N -> A) (live : N -> list ext) (got : list (N * ext)) : Prop :=
  forall c, In c chunks -> holds (st c) (of_chunk c got ++ live c).
Theorem c127_vector A (alc : A -> N -> list ext -> option (A * status * list ext)) fre look chunks ok holds n live st idx st' idx' s got :
  lawful alc fre true ok holds -> 0 < n -> (forall m, 0 < m <= n -> ok m) -> NoDup chunks -> chunks <> [] ->
  (forall c, In c chunks -> holds (st c) (live c)) ->
  alloc_vec alc fre true look chunks st idx n = Some (st', idx', s, got) ->
  (s = Success /\ total got = n /\ taken_from holds chunks st' live got) \/ s = Fail.
Proof.
  intros L Hn Hok Hd Hne Hh E. unfold alloc_vec in E.
  pose proof (many_ok A alc fre look chunks ok holds L Hd Hne live (S (N.to_nat n)) n st idx [] Hn Hok ltac:(lia) Hh) as P.
  rewrite E in P. destruct s; [|contradiction|now right]. destruct P as [P1 P2]. left. cbn in P2. auto.
Qed.
Print Assumptions c127_vector.

Definition seenv {A} (r : option ((N -> A) * nat * status * list (N * ext))) : option (nat * status * list (N * ext)) :=
  match r with Some (_, i, s, o) => Some (i, s, o) | None => None end.
Definition inpart : hints := Hints 0 true true 1.
Example c127_nonvacuous :
  lawful (varsize_onto cfx (first_fit 32) inpart [[]]) (varsize_fre cfx) true (fun n => legal_alloc n inpart) (varsize_holds cfx 3) /\
  (forall m, 0 < m <= 24 -> legal_alloc m inpart) /\
  (forall c, In c [1; 2] -> varsize_holds cfx 3 (stx 8 c) (livex 8 c)) /\
  seenv (alloc_vec (varsize_onto cfx (first_fit 32) inpart [[]]) (varsize_fre cfx) true true [1; 2] (stx 8) 0 24)
    = Some (2%nat, Success, [(1, (30, 2)); (2, (8, 8)); (2, (16, 14))]).
Proof.
  split; [apply c125_varsize; [apply first_fit_ok|now left|exact triesx]|].
  split; [intros m Hm; unfold legal_alloc; cbn; lia|]. split; [apply stx_holds; lia|]. vm_compute. reflexivity.
Qed.

(** C68: when it fails, one id is missing from the vector. *)
Theorem c68_failure_leaves_one_out A (alc : A -> N -> list ext -> option (A * status * list ext)) fre look chunks ok holds n live st idx st' idx' got :
  lawful alc fre true ok holds -> 0 < n -> (forall m, 0 < m <= n -> ok m) -> NoDup chunks -> chunks <> [] ->
  (forall c, In c chunks -> holds (st c) (live c)) ->
  alloc_vec alc fre true look chunks st idx n = Some (st', idx', Fail, got) ->
  exists x, taken_from holds chunks st' live (got ++ [x]) /\ total (got ++ [x]) < n.
Proof.
  intros L Hn Hok Hd Hne Hh E. unfold alloc_vec in E.
  pose proof (many_ok A alc fre look chunks ok holds L Hd Hne live (S (N.to_nat n)) n st idx [] Hn Hok ltac:(lia) Hh) as P.
  rewrite E in P. exact P.
Qed.
Print Assumptions c68_failure_leaves_one_out.

Definition failure_accounts_for_all : Prop :=
  forall cf scan tries k chunks live st idx n h,
  scan_ok (vc_total cf) scan -> h_partial h = true -> (forall m, 0 < m <= n -> legal_alloc m h) -> 0 < n -> NoDup chunks -> chunks <> [] ->
  (forall s, length (v_cache s) = k -> Forall (Forall (legal_sweep s)) tries) ->
  (forall c, In c chunks -> varsize_holds cf k (st c) (live c)) ->
  exists st' idx' s got, alloc_vec (varsize_onto cf scan h tries) (varsize_fre cf) true true chunks st idx n = Some (st', idx', s, got) /\
    taken_from (varsize_holds cf k) chunks st' live got.

(** The last piece is dropped and stays allocated; *)
Definition used1 (r : option ((N -> vst) * nat * status * list (N * ext))) : option (list (N * ext) * N) :=
  match r with Some (st, _, Fail, got) => Some (got, v_alloced (st 1)) | _ => None end.
Theorem c68_chunks_refuted : ~ failure_accounts_for_all.
Proof.
  intros H.
  destruct (H cfx (first_fit 32) [[]] 3%nat [1] (livex 32) (stx 32) 0%nat 4 inpart) as (st' & i & s & got & E & T).
  - apply first_fit_ok.
  - reflexivity.
  - intros m Hm; unfold legal_alloc; cbn; lia.
  - lia.
  - repeat constructor; cbn; lia.
  - discriminate.
  - exact triesx.
  - intros c Hc. apply stx_holds; [lia|]. destruct Hc as [<-|[]]. now left.
  - assert (X : used1 (alloc_vec (varsize_onto cfx (first_fit 32) inpart [[]]) (varsize_fre cfx) true true [1] (stx 32) 0 4) = Some ([], 32))
      by (vm_compute; reflexivity).
    rewrite E in X. destruct s; cbn [used1] in X; try discriminate.
    assert (Xg : got = []) by congruence. assert (Xv : v_alloced (st' 1) = 32) by congruence.
    destruct (T 1 (or_introl eq_refl)) as (_ & (_ & _ & Y) & _). rewrite Xv, Xg in Y. vm_compute in Y. discriminate.
Qed.
Print Assumptions c68_chunks_refuted.

(** and if nothing was got at all, an element is taken from an empty vector. *)
Theorem c68_chunks_empty_refuted :
  alloc_vec append_alc append_fre true true ex_chunks ex_st 1 11 = None.
Proof. vm_compute. reflexivity. Qed.
Print Assumptions c68_chunks_empty_refuted.
