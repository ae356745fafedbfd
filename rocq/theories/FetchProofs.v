(** * Proofs about fetching. *)
From Coq Require Import Arith NArith List Bool Lia.
From Verif Require Import Base ReplDataModel FetchModel FetchSpec.
Import ListNotations.
Open Scope N_scope.

(** ** Bits *)
Lemma has_with v b b' : has (with_bit v b) b' = has v b' || (b =? b').
Proof.
  unfold has, with_bit. rewrite N.lor_spec, N.pow2_bits_eqb. reflexivity.
Qed.

(** ** Drives *)
Lemma wr1_same d a v : wr1 d a v a = v.
Proof. unfold wr1. now rewrite !N.eqb_refl. Qed.
Lemma wr1_other d a v a' : a' <> a -> wr1 d a v a' = d a'.
Proof.
  intros H. unfold wr1. destruct (N.eqb_spec (fst a') (fst a)); [|reflexivity].
  destruct (N.eqb_spec (snd a') (snd a)); [|reflexivity].
  exfalso. apply H. destruct a, a'; cbn in *. congruence.
Qed.
Lemma wr_other l : forall d bs a, ~ In a l -> wr d l bs a = d a.
Proof.
  induction l as [|x l IH]; intros d bs a H; [reflexivity|].
  destruct bs as [|v bs]; [reflexivity|]. cbn in *.
  rewrite IH by tauto. apply wr1_other. intros ->. tauto.
Qed.
Lemma wr_content l : forall d bs, NoDup l -> length l = length bs -> map (wr d l bs) l = bs.
Proof.
  induction l as [|x l IH]; intros d bs Hn Hl; destruct bs as [|v bs]; try discriminate; [reflexivity|].
  inversion_clear Hn as [|? ? H1 H2]. cbn in *. f_equal.
  - rewrite wr_other by assumption. apply wr1_same.
  - apply IH; [assumption|lia].
Qed.

Lemma length_nrange b n : length (nrange b n) = N.to_nat n.
Proof. unfold nrange. now rewrite map_length, seq_length. Qed.
Lemma length_expand x : N.of_nat (length (expand x)) = fold_right (fun p n => snd p + n) 0 (i_pieces x).
Proof.
  unfold expand. induction (i_pieces x) as [|p l IH]; [reflexivity|].
  cbn [flat_map fold_right]. rewrite app_length, map_length, length_nrange. lia.
Qed.
Lemma count_expand x : counted x -> N.to_nat (blk_count x) = length (expand x).
Proof.
  unfold counted, blk_count. intros H. rewrite <- length_expand, N.mod_small by exact H. lia.
Qed.
Lemma read_content d x : counted x -> read d x = content d x.
Proof.
  intros H. unfold read, content. rewrite count_expand by assumption.
  apply firstn_all2. rewrite map_length. lia.
Qed.

Section S.
Variable q : nat -> req.
Variable d : addr -> N.
Hypothesis Hq : sound q.

(** What holds of a state reached from [s0]. *)
Record good (s0 s : st) : Prop := {
  g_disk : forall i, received s i -> ~ received s0 i -> content (s_disk s) (q_local (q i)) = content d (q_remote (q i)) /\ written s i;
  g_rest : forall a, (forall i, received s i -> ~ received s0 i -> ~ In a (expand (q_local (q i)))) -> s_disk s a = s_disk s0 a;
  g_mono : forall i, received s0 i -> received s i
}.

Lemma good_refl s : good s s.
Proof. constructor; [tauto|reflexivity|tauto]. Qed.

(** One delivery. *)
Lemma deliver_good s0 s i :
  good s0 s -> exists s', deliver q s i (content d (q_remote (q i))) = Some s' /\ good s0 s' /\ received s' i /\
    (forall j, received s j -> received s' j).
Proof.
  intros G. unfold deliver. destruct (has (s_bits s i) DATA_RECEIVED) eqn:E.
  - exists s. ands; auto.
  - assert (Hl : length (expand (q_local (q i))) = length (content d (q_remote (q i)))).
    { unfold content. rewrite map_length. apply (so_same _ Hq). }
    destruct (Nat.leb_spec (length (expand (q_local (q i)))) (length (content d (q_remote (q i))))) as [_|H]; [|lia].
    eexists; split; [reflexivity|].
    assert (Hb : forall j, received (St (wr (s_disk s) (expand (q_local (q i))) (content d (q_remote (q i))))
               (fun j => if Nat.eqb j i then with_bit (with_bit (s_bits s i) DATA_RECEIVED) DATA_WRITTEN
                         else s_bits s j) (s_freed s)) j <-> j = i \/ received s j).
    { intros j. unfold received; cbn. destruct (Nat.eqb_spec j i) as [->|Hn].
      - rewrite !has_with. cbn. rewrite orb_true_r. cbn. tauto.
      - tauto. }
    assert (N0 : ~ received s0 i).
    { intros H. apply (g_mono _ _ G) in H. unfold received in H. congruence. }
    split; [|split].
    + constructor.
      * intros j H1 H2. unfold written; cbn. unfold content at 1.
        destruct (Nat.eq_dec j i) as [->|Hn].
        -- rewrite Nat.eqb_refl, !has_with, N.eqb_refl, orb_true_r. split; [|reflexivity].
           apply wr_content; [apply (so_nodup _ Hq)|assumption].
        -- apply Hb in H1. destruct H1 as [->|H1]; [congruence|].
           destruct (g_disk _ _ G j H1 H2) as [A B].
           destruct (Nat.eqb_spec j i); [congruence|]. split; [|exact B].
           rewrite <- A. unfold content. apply map_ext_in. intros a Ha. apply wr_other.
           intros Hi. apply Hn. eapply (so_apart _ Hq); eauto.
      * intros a H. cbn. rewrite wr_other.
        -- apply (g_rest _ _ G). intros j H1 H2. apply H; [apply Hb; auto|assumption].
        -- apply H; [apply Hb; auto|assumption].
      * intros j H. apply Hb. right. now apply (g_mono _ _ G).
    + apply Hb. auto.
    + intros j H. apply Hb. auto.
Qed.

Lemma response_good s0 b : forall s, good s0 s ->
  exists s', response q s b (concat (map (fun i => content d (q_remote (q i))) b)) = Some s' /\ good s0 s' /\
    (forall j, received s j \/ In j b -> received s' j).
Proof.
  induction b as [|i b IH]; intros s G; cbn [response map concat].
  - exists s. split; [reflexivity|]. split; [assumption|]. intros j [H|[]]; assumption.
  - rewrite count_expand by apply (so_count _ Hq).
    replace (length (expand (q_remote (q i)))) with (length (content d (q_remote (q i))))
      by (unfold content; apply map_length).
    rewrite firstn_app, firstn_all, Nat.sub_diag, firstn_O, app_nil_r.
    rewrite skipn_app, skipn_all, Nat.sub_diag, skipn_O. cbn [app].
    destruct (deliver_good s0 s i G) as (s1 & E1 & G1 & R1 & M1). rewrite E1.
    destruct (IH s1 G1) as (s2 & E2 & G2 & R2). exists s2. split; [exact E2|]. split; [exact G2|].
    intros j [H|[->|H]]; apply R2; auto.
Qed.

Lemma give_up_bits s i j b : b <> ERRORED -> has (s_bits (give_up s i) j) b = has (s_bits s j) b.
Proof.
  intros H. unfold give_up. destruct (has (s_bits s i) ERRORED); [reflexivity|]. cbn.
  destruct (Nat.eqb_spec j i) as [->|]; [|reflexivity].
  rewrite has_with. destruct (N.eqb_spec ERRORED b); [congruence|]. apply orb_false_r.
Qed.
Lemma give_up_disk s i : s_disk (give_up s i) = s_disk s.
Proof. unfold give_up. now destruct (has (s_bits s i) ERRORED). Qed.

Lemma failed_bits b : forall s j x, x <> ERRORED -> has (s_bits (failed s b) j) x = has (s_bits s j) x.
Proof.
  induction b as [|i b IH]; intros s j x H; [reflexivity|]. cbn. rewrite IH by assumption.
  destruct (has (s_bits s i) DATA_RECEIVED); [reflexivity|]. now apply give_up_bits.
Qed.
Lemma failed_disk b : forall s, s_disk (failed s b) = s_disk s.
Proof.
  induction b as [|i b IH]; intros s; [reflexivity|]. cbn. rewrite IH.
  destruct (has (s_bits s i) DATA_RECEIVED); [reflexivity|]. apply give_up_disk.
Qed.

Lemma good_same s0 s s' : good s0 s -> s_disk s' = s_disk s ->
  (forall j x, x <> ERRORED -> has (s_bits s' j) x = has (s_bits s j) x) -> good s0 s'.
Proof.
  intros G Hd Hb.
  assert (Hr : forall j, received s' j <-> received s j) by (intros; unfold received; now rewrite Hb).
  constructor.
  - intros i H1 H2. rewrite Hd. unfold written. rewrite Hb by discriminate. apply (g_disk _ _ G); [now apply Hr|assumption].
  - intros a H. rewrite Hd. apply (g_rest _ _ G). intros i H1 H2. apply H; [now apply Hr|assumption].
  - intros i H. apply Hr. now apply (g_mono _ _ G).
Qed.

Lemma step_good s0 s e : good s0 s -> genuine q d e ->
  exists s', step q s e = Some s' /\ good s0 s' /\ (forall i, received s i -> received s' i) /\
    (forall i, served i e -> received s' i).
Proof.
  intros G He. destruct e as [b data|b|i data|i]; cbn in He.
  - destruct He as [->|He].
    + exists s. cbn. ands; auto. intros i [_ H]. congruence.
    + destruct (response_good s0 b s G) as (s' & E & G' & R).
      destruct data as [|x data].
      * exists s. cbn. ands; auto. intros i [_ H]. congruence.
      * exists s'. cbn [step]. rewrite He, E. split; [reflexivity|]. split; [exact G'|].
        split; [intros i H; apply R; auto|]. intros i [H _]. apply R; auto.
  - exists (failed s b). cbn. split; [reflexivity|]. split.
    + apply (good_same s0 s); [assumption|apply failed_disk|]. intros. now apply failed_bits.
    + split; [|tauto]. intros i H. unfold received. rewrite failed_bits; [exact H|discriminate].
  - rewrite He. destruct (deliver_good s0 s i G) as (s' & E & G' & R & M). exists s'. cbn. ands; auto.
    intros j ->. assumption.
  - exists (give_up s i). cbn. split; [reflexivity|]. split.
    + apply (good_same s0 s); [assumption|apply give_up_disk|]. intros. now apply give_up_bits.
    + split; [|tauto]. intros j H. unfold received. rewrite give_up_bits; [exact H|discriminate].
Qed.

Lemma run_good s0 l : forall s, good s0 s -> Forall (genuine q d) l ->
  exists s', run q s l = Some s' /\ good s0 s' /\ (forall i, received s i -> received s' i) /\
    (forall i, Exists (served i) l -> received s' i).
Proof.
  induction l as [|e l IH]; intros s G F; cbn.
  - exists s. ands; auto. intros i H. inversion H.
  - inversion_clear F as [|? ? F1 F2]. destruct (step_good s0 s e G F1) as (s1 & E1 & G1 & M1 & R1).
    rewrite E1. destruct (IH s1 G1 F2) as (s2 & E2 & G2 & M2 & R2). exists s2.
    split; [exact E2|]. split; [exact G2|]. split; [auto|].
    intros i H. inversion_clear H; auto.
Qed.
End S.

(** ** Batches *)
Section B.
Variable q : nat -> req.
Variable bs max : N.
Hypothesis Hc : forall i, counted (q_remote (q i)).

Lemma size_bytes i : size q bs i = N.of_nat (length (expand (q_remote (q i)))) * bs.
Proof. unfold size. rewrite <- count_expand by apply Hc. lia. Qed.

Definition fits (b : list nat) : Prop := b <> [] /\ (length b = 1%nat \/ bytes q bs b < max).

Lemma bytes_app a b : bytes q bs (a ++ b) = bytes q bs a + bytes q bs b.
Proof. unfold bytes. induction a; cbn; [reflexivity|]. rewrite IHa. lia. Qed.

Lemma emit_fits cur : (cur = [] \/ length cur = 1%nat \/ bytes q bs cur < max) -> Forall fits (emit cur).
Proof.
  intros H. destruct cur as [|x cur]; [constructor|]. constructor; [|constructor]. split; [discriminate|].
  destruct H as [H|H]; [discriminate|exact H].
Qed.
Lemma concat_emit cur : concat (emit cur) = cur.
Proof. destruct cur; cbn; [reflexivity|]. now rewrite app_nil_r. Qed.

Lemma batch_loop_ok bits orig l : forall total cur out,
  total = bytes q bs cur -> (cur = [] \/ length cur = 1%nat \/ total < max) ->
  batch_loop q bs max bits orig l total cur = Done out ->
  concat out = cur ++ filter (fun i => negb (skipped (bits i))) l /\ Forall fits out /\
  (forall i, In i l -> skipped (bits i) = false -> q_server (q i) = orig).
Proof.
  induction l as [|i l IH]; intros total cur out Ht Hcur H; cbn in H.
  - injection H as <-. rewrite app_nil_r. split; [apply concat_emit|]. split; [apply emit_fits; subst; exact Hcur|]. intros ? [].
  - cbn [filter]. destruct (skipped (bits i)) eqn:Es; cbn [negb].
    + destruct (IH _ _ _ Ht Hcur H) as (A & B & C). split; [exact A|]. split; [exact B|].
      intros j [<-|Hj] Hs; [congruence|]. now apply C.
    + destruct (N.eqb_spec (q_server (q i)) orig) as [Eo|]; cbn in H; [|discriminate].
      assert (Hi : bytes q bs [i] = size q bs i) by (rewrite size_bytes; unfold bytes; cbn; lia).
      destruct (N.leb_spec max (total + size q bs i)).
      * destruct (batch_loop q bs max bits orig l (size q bs i) [i]) as [b| |] eqn:E; try discriminate.
        injection H as <-. destruct (IH _ [i] b (eq_sym Hi) ltac:(cbn; auto) E) as (A & B & C).
        split; [|split].
        -- rewrite concat_app, concat_emit, A. reflexivity.
        -- apply Forall_app. split; [|exact B]. apply emit_fits. subst. exact Hcur.
        -- intros j [<-|Hj] Hs; [assumption|now apply C].
      * assert (Ht' : total + size q bs i = bytes q bs (cur ++ [i])) by (rewrite bytes_app, Hi, Ht; reflexivity).
        destruct (IH _ (cur ++ [i]) out Ht' ltac:(auto) H) as (A & B & C).
        split; [|split]; [|exact B|].
        -- rewrite A, <- app_assoc. reflexivity.
        -- intros j [<-|Hj] Hs; [assumption|now apply C].
Qed.

Lemma batch_loop_done bits orig l : (forall i, In i l -> q_server (q i) = orig) -> forall total cur,
  exists out, batch_loop q bs max bits orig l total cur = Done out.
Proof.
  induction l as [|i l IH]; intros Ho total cur; cbn.
  - eauto.
  - rewrite (Ho i) by (left; reflexivity). rewrite N.eqb_refl. cbn [negb].
    assert (Ho' : forall j, In j l -> q_server (q j) = orig) by (intros; apply Ho; right; assumption).
    destruct (skipped (bits i)); [apply (IH Ho')|].
    destruct (max <=? total + size q bs i); [|apply (IH Ho')].
    destruct (IH Ho' (size q bs i) [i]) as [out E]. rewrite E. eauto.
Qed.

Lemma fetch_ok bits l out : fetch q bs max bits l = Done out ->
  concat out = filter (fun i => negb (skipped (bits i))) l /\ Forall fits out.
Proof.
  destruct l as [|i l]; [discriminate|]. intros H. unfold fetch in H.
  eapply batch_loop_ok in H; [|reflexivity|left; reflexivity]. tauto.
Qed.
Lemma fetch_done bits l orig : l <> [] -> (forall i, In i l -> q_server (q i) = orig) ->
  exists out, fetch q bs max bits l = Done out.
Proof.
  intros Hl Ho. destruct l as [|i l]; [congruence|]. apply batch_loop_done.
  intros j Hj. rewrite (Ho i) by (left; reflexivity). now apply Ho.
Qed.
End B.
