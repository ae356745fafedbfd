(** * Proofs about JournalModel. *)
From Coq Require Import NArith ZArith List Bool Lia Arith Sorting.Sorted.
From Verif Require Import Base JournalModel JournalSpec.
Import ListNotations.
Local Open Scope Z_scope.

Lemma find_chunk_at : forall cs l k c idx o, 0 < cs -> nth_error l k = Some c -> 0 <= o < cs ->
  find_chunk cs l idx (Z.of_nat k * cs + o) = Some (c, (idx + k)%nat, o).
Proof.
  intros cs l k c; revert l; induction k as [|k IH]; intros [|h l] idx o Hcs Hn Ho; try discriminate.
  - cbn in Hn. injection Hn as ->. cbn [find_chunk].
    destruct (Z.leb_spec cs (Z.of_nat 0 * cs + o)); [lia|]. repeat f_equal; lia.
  - cbn [find_chunk nth_error] in *.
    destruct (Z.leb_spec cs (Z.of_nat (S k) * cs + o)) as [H|H].
    + replace (Z.of_nat (S k) * cs + o - cs) with (Z.of_nat k * cs + o) by lia.
      rewrite (IH l (S idx) o Hcs Hn Ho). f_equal. f_equal. f_equal. lia.
    + exfalso. nia.
Qed.

Lemma round_down_at : forall cs q s, 0 <= s < cs -> round_down (q * cs + s) cs = q * cs.
Proof.
  intros cs q s H. unfold round_down. f_equal. symmetry. apply (Z.div_unique _ _ q s); [left; lia|lia].
Qed.

Lemma round_up_at : forall cs q s, 0 < s < cs -> round_up (q * cs + s) cs = (q + 1) * cs.
Proof.
  intros cs q s H. unfold round_up. f_equal. symmetry. apply (Z.div_unique _ _ (q + 1) (s - 1)); [left; lia|lia].
Qed.

Lemma round_up_0 : forall cs q, 0 < cs -> round_up (q * cs) cs = q * cs.
Proof.
  intros cs q H. unfold round_up. f_equal. symmetry. apply (Z.div_unique _ _ q (cs - 1)); [left; lia|lia].
Qed.

Lemma mod_at : forall cs q s, 0 <= s < cs -> (q * cs + s) mod cs = s.
Proof. intros cs q s H. symmetry. apply (Z.mod_unique _ _ q s); [left; lia|lia]. Qed.

Lemma div_at : forall cs q s, 0 <= s < cs -> (q * cs + s) / cs = q.
Proof. intros cs q s H. symmetry. apply (Z.div_unique _ _ q s); [left; lia|lia]. Qed.

(** ** The invariant *)
Definition slotted (cs : Z) (r : Z * Z) : Prop :=
  exists m o, fst r = m * cs + o /\ 0 <= o /\ 0 < snd r /\ o + snd r < cs.

Fixpoint sum (l : list (Z * Z)) : Z := match l with [] => 0 | r :: t => snd r + sum t end.

Definition tailv (d : jdesc) : Z := j_start d + j_wsz d + j_resv d.

Record shape (cs : Z) (d : jdesc) (pv : privs) (q s0 : Z) : Prop := Shape {
  sh_start : j_start d = q * cs + s0;
  sh_s0 : 0 <= s0 < cs;
  sh_total : j_total d = Z.of_nat (length (j_chunks d)) * cs;
  sh_end : j_end d = (q + Z.of_nat (length (j_chunks d))) * cs;
  sh_tail : j_chunks d <> [] ->
            (q + Z.of_nat (length (j_chunks d)) - 1) * cs <= tailv d < j_end d /\ j_start d <= tailv d;
  sh_empty : j_chunks d = [] -> s0 = 0 /\ tailv d = j_start d;
  sh_last : forall k c, nth_error (j_chunks d) k = Some c -> S k = length (j_chunks d) -> pv_eoc (pv c) = cs;
  sh_eoc : forall k c, nth_error (j_chunks d) k = Some c -> S k <> length (j_chunks d) -> 0 < pv_eoc (pv c) < cs;
  sh_first : forall c, nth_error (j_chunks d) 0 = Some c -> s0 <= pv_eoc (pv c);
  sh_nodup : NoDup (j_chunks d)
}.

Record chain (ld : N) (l : list N) (pv : privs) : Prop := Chain {
  ch_next : forall k c, nth_error l k = Some c -> pv_next (pv c) = match nth_error l (S k) with Some c' => c' | None => 0%N end;
  ch_head : forall k c, nth_error l k = Some c ->
            pv_head (pv c) = Nat.eqb k 0 /\ (k = 0%nat -> pv_logdev (pv c) = ld) /\ (0 < pv_created (pv c))%N;
  ch_other : forall c, ~ In c l -> ~ (pv_head (pv c) = true /\ pv_logdev (pv c) = ld);
  ch_id : ~ In 0%N l
}.

Record granges (cs : Z) (d : jdesc) (pv : privs) (g : ghost) (q : Z) : Prop := GR {
  gr_inc : increasing (g_ranges g);
  gr_slot : forall r, In r (g_ranges g) -> slotted cs r;
  gr_tail : forall r, In r (g_ranges g) -> fst r + snd r <= tailv d;
  gr_live : forall r, In r (g_ranges g) -> fst r + snd r <= j_start d \/ j_start d <= fst r;
  gr_eoc : forall r k c o, In r (g_ranges g) -> nth_error (j_chunks d) k = Some c ->
           fst r = (q + Z.of_nat k) * cs + o -> 0 <= o < cs -> o + snd r <= pv_eoc (pv c);
  gr_pinc : increasing (g_pending g);
  gr_pend : forall r, In r (g_pending g) -> In r (g_ranges g) /\ j_start d <= fst r;
  gr_resv : j_resv d = sum (g_pending g)
}.

Definition content (cs : Z) (d : jdesc) (m : media) (g : ghost) (q : Z) : Prop :=
  forall k c o, nth_error (j_chunks d) k = Some c -> 0 <= o < cs ->
  written g ((q + Z.of_nat k) * cs + o) -> m c o = g_file g ((q + Z.of_nat k) * cs + o).

Definition inv (cs : Z) (ld : N) (w : world) (g : ghost) : Prop :=
  exists q s0, shape cs (w_d w) (w_pv w) q s0 /\ chain ld (j_chunks (w_d w)) (w_pv w) /\
               granges cs (w_d w) (w_pv w) g q /\ content cs (w_d w) (w_mem w) g q.

Lemma otc_at : forall cs d q s0 k c o, 0 < cs -> j_start d = q * cs + s0 -> 0 <= s0 < cs ->
  nth_error (j_chunks d) k = Some c -> 0 <= o < cs ->
  offset_to_chunk cs d ((q + Z.of_nat k) * cs + o) = Some (c, k, o).
Proof.
  intros cs d q s0 k c o Hcs Hs H0 Hn Ho. unfold offset_to_chunk.
  rewrite Hs, round_down_at by lia.
  replace ((q + Z.of_nat k) * cs + o - q * cs) with (Z.of_nat k * cs + o) by lia.
  destruct (Z.ltb_spec (Z.of_nat k * cs + o) 0); [nia|].
  now rewrite (find_chunk_at cs _ k c 0 o).
Qed.

(** Which chunk a live offset is in. *)
Lemma place : forall cs q n x, 0 < cs -> q * cs <= x < (q + n) * cs -> 0 <= n ->
  exists k o, x = (q + Z.of_nat k) * cs + o /\ 0 <= o < cs /\ Z.of_nat k < n.
Proof.
  intros cs q n x Hcs Hx Hn.
  assert (Hd := Z.div_mod x cs ltac:(lia)). assert (Hm := Z.mod_pos_bound x cs Hcs).
  assert (Hq : q <= x / cs) by (apply Z.div_le_lower_bound; lia).
  assert (Hq2 : x / cs < q + n) by (apply Z.div_lt_upper_bound; lia).
  exists (Z.to_nat (x / cs - q)), (x mod cs).
  rewrite Z2Nat.id by lia. ands; lia.
Qed.

Lemma slot_unique : forall cs a b o p, 0 <= o < cs -> 0 <= p < cs -> a * cs + o = b * cs + p -> a = b /\ o = p.
Proof. intros cs a b o p Ho Hp E. assert (a = b) by nia. subst. lia. Qed.

Lemma nth_error_lt : forall {A} (l : list A) k, (k < length l)%nat -> exists c, nth_error l k = Some c.
Proof. intros A l k H. destruct (nth_error l k) eqn:E; eauto. apply nth_error_None in E. lia. Qed.

(** ** Sorted lists of ranges *)
Lemma inc_app1 : forall l r, increasing l -> (forall a, In a l -> before a r) -> increasing (l ++ [r]).
Proof.
  induction l as [|a l IH]; intros r H Hr; cbn.
  - repeat constructor.
  - inversion H; subst. constructor.
    + apply IH; [assumption|]. intros b Hb. apply Hr. now right.
    + apply Forall_app. split; [assumption|]. constructor; [|constructor]. apply Hr. now left.
Qed.

Lemma inc_filter : forall f l, increasing l -> increasing (filter f l).
Proof.
  intros f; induction l as [|a l IH]; intros H; cbn; [constructor|].
  inversion H; subst. destruct (f a); [|exact (IH H2)]. constructor; [exact (IH H2)|].
  apply Forall_forall. intros b Hb. apply filter_In in Hb. rewrite Forall_forall in H3. apply H3, Hb.
Qed.

Lemma inc_before : forall l a b, increasing l -> In a l -> In b l -> a = b \/ before a b \/ before b a.
Proof.
  induction l as [|c l IH]; intros a b H Ha Hb; [contradiction|].
  inversion H; subst. rewrite Forall_forall in H3.
  destruct Ha as [->|Ha], Hb as [->|Hb]; auto.
Qed.

Lemma sum_drop : forall l x n, increasing l -> (forall r, In r l -> 0 < snd r) -> In (x, n) l ->
  sum (drop_range x l) = sum l - n.
Proof.
  induction l as [|a l IH]; intros x n H Hp Hin; [contradiction|].
  inversion H as [|? ? Hs Hf]; subst. rewrite Forall_forall in Hf. cbn [drop_range filter sum].
  destruct Hin as [->|Hin].
  - cbn [fst snd]. rewrite Z.eqb_refl. cbn [negb].
    assert (E : drop_range x l = l).
    { clear IH. unfold drop_range. assert (G : forall r, In r l -> x < fst r).
      { intros r Hr. specialize (Hf r Hr). unfold before in Hf. cbn in Hf. specialize (Hp (x, n) (or_introl eq_refl)). cbn in Hp. lia. }
      clear -G. induction l as [|b l IH]; [reflexivity|]. cbn.
      assert (x < fst b) by (apply G; now left). destruct (Z.eqb_spec (fst b) x); [lia|]. cbn. f_equal.
      apply IH. intros r Hr. apply G. now right. }
    fold (drop_range x l). rewrite E. lia.
  - assert (Hb := Hf _ Hin). unfold before in Hb. cbn in Hb.
    assert (0 < snd a) by (apply Hp; now left).
    destruct (Z.eqb_spec (fst a) x); [lia|]. cbn [negb sum]. fold (drop_range x l).
    rewrite (IH x n); auto; [lia|]. intros r Hr. apply Hp. now right.
Qed.

Lemma sum_app : forall l r, sum (l ++ r) = sum l + sum r.
Proof. induction l; intros; cbn; [reflexivity|]. rewrite IHl. lia. Qed.

Lemma sum_nonneg : forall l, (forall r, In r l -> 0 < snd r) -> 0 <= sum l.
Proof.
  induction l as [|a l IH]; intros H; cbn; [lia|].
  assert (0 < snd a) by (apply H; now left). assert (0 <= sum l) by (apply IH; intros; apply H; now right). lia.
Qed.

Lemma sum_in : forall l r, (forall a, In a l -> 0 < snd a) -> In r l -> snd r <= sum l.
Proof.
  induction l as [|a l IH]; intros r H Hin; [contradiction|]. cbn.
  assert (0 < snd a) by (apply H; now left).
  assert (0 <= sum l) by (apply sum_nonneg; intros; apply H; now right).
  destruct Hin as [->|Hin]; [lia|]. assert (snd r <= sum l) by (apply IH; auto; intros; apply H; now right). lia.
Qed.

(** ** Reserving *)
Lemma nth_error_app_last : forall {A} (l : list A) x k c, nth_error (l ++ [x]) k = Some c ->
  (k < length l)%nat /\ nth_error l k = Some c \/ k = length l /\ c = x.
Proof.
  intros A l x k c H. destruct (Nat.lt_ge_cases k (length l)) as [L|L].
  - left. split; [assumption|]. now rewrite nth_error_app1 in H.
  - right. rewrite nth_error_app2 in H by assumption.
    destruct (k - length l)%nat as [|j] eqn:E; cbn in H; [|destruct j; discriminate].
    injection H as ->. split; [lia|reflexivity].
Qed.

Lemma put_priv_eq : forall pv c p, put_priv pv (c, p) c = p.
Proof. intros. unfold put_priv. cbn. now rewrite N.eqb_refl. Qed.
Lemma put_priv_ne : forall pv c p i, i <> c -> put_priv pv (c, p) i = pv i.
Proof. intros. unfold put_priv. cbn. destruct (N.eqb_spec i c); [contradiction|reflexivity]. Qed.

Lemma nodup_app1 : forall {A} (l : list A) x, NoDup l -> ~ In x l -> NoDup (l ++ [x]).
Proof.
  intros A l x H Hx. induction H as [|a l Ha H IH]; cbn; [constructor; [auto|constructor]|].
  constructor; [|apply IH; intro; apply Hx; now right].
  intro G. apply in_app_or in G. destruct G as [G|[->|[]]]; [auto|]. apply Hx. now left.
Qed.

Lemma nodup_nth_eq : forall {A} (l : list A) i j c, NoDup l -> nth_error l i = Some c -> nth_error l j = Some c -> i = j.
Proof.
  intros A l i j c H Hi Hj. rewrite NoDup_nth_error in H. apply H; [|congruence].
  apply nth_error_Some. congruence.
Qed.

Lemma rev_last : forall {A} (l : list A) x r, rev l = x :: r -> nth_error l (length l - 1) = Some x /\ l <> [].
Proof.
  intros A l x r H. assert (E : l = rev r ++ [x]) by (rewrite <- (rev_involutive l), H; reflexivity).
  subst l. split; [|intro G; now destruct (rev r)].
  rewrite app_length. cbn. replace (length (rev r) + 1 - 1)%nat with (length (rev r)) by lia.
  now rewrite nth_error_app2, Nat.sub_diag by lia.
Qed.

(** Appending a chunk keeps the state in order and leaves room for less than a chunk. *)
Lemma append_chunk_spec : forall cs ld w g sz nid,
  0 < cs -> inv cs ld w g -> legal cs ld w g (OAlloc sz nid) -> j_end (w_d w) <= tailv (w_d w) + sz ->
  exists d1 wr, append_chunk cs ld (w_d w) (w_pv w) nid = Some (d1, wr) /\
    inv cs ld (World d1 (put_priv (w_pv w) wr) (w_mem w)) g /\
    j_start d1 = j_start (w_d w) /\ tailv d1 = j_end (w_d w) /\ j_end d1 = j_end (w_d w) + cs /\ j_chunks d1 <> [].
Proof.
  intros cs ld w g sz nid Hcs (q & s0 & SH & CH & GR & CO) (Hsz & Hid & Hni & created & Hc & Hpv) Hfull.
  destruct w as [d pv m]; cbn [w_d w_pv w_mem] in *. unfold append_chunk.
  destruct SH as [S1 S2 S3 S4 S5 S6 S7 S8 S9 S10]. destruct CH as [C1 C2 C3 C4].
  destruct GR as [G1 G2 G3 G4 G5 G6 G7 G8].
  destruct (rev (j_chunks d)) as [|last rest] eqn:ER.
  - assert (E : j_chunks d = []) by (rewrite <- (rev_involutive (j_chunks d)), ER; reflexivity).
    destruct (S6 E) as [-> Ht]. rewrite E in *. cbn [length] in *.
    eexists _, _; split; [reflexivity|]. cbn [j_start j_end j_chunks]. rewrite Hpv.
    assert (Htv : tailv (JD (j_start d) (j_wsz d) (j_resv d) (j_end d + cs) (j_total d + cs) [nid]) = tailv d) by reflexivity.
    split; [|ands; try reflexivity; try discriminate; rewrite Htv; lia].
    exists q, 0. cbn [w_d w_pv w_mem j_chunks]. split; [|split; [|split]].
    + constructor; cbn [j_start j_chunks j_total j_end length]; try rewrite Htv; try lia.
      * intros [|k] c Hk; cbn in Hk; [|destruct k; discriminate]. injection Hk as <-. intros _.
        now rewrite put_priv_eq.
      * intros [|k] c Hk H1; cbn in Hk; [lia|destruct k; discriminate].
      * intros c Hk. cbn in Hk. injection Hk as <-. rewrite put_priv_eq. cbn. lia.
      * repeat constructor; auto.
    + constructor.
      * intros [|k] c Hk; cbn in Hk; [|destruct k; discriminate]. injection Hk as <-. now rewrite put_priv_eq.
      * intros [|k] c Hk; cbn in Hk; [|destruct k; discriminate]. injection Hk as <-. rewrite put_priv_eq. cbn. auto.
      * intros c Hc'. rewrite put_priv_ne; [apply C3; auto|]. intro. subst. apply Hc'. now left.
      * intros [H|[]]. congruence.
    + constructor; cbn [j_start j_chunks j_resv]; auto; try rewrite Htv; auto.
      intros r [|k] c o Hr Hk Hx Ho; cbn in Hk; [|destruct k; discriminate].
      injection Hk as <-. rewrite put_priv_eq. cbn.
      destruct (G2 r Hr) as (mm & oo & Hf & Hoo & Hs & Hlt).
      destruct (slot_unique cs (q + Z.of_nat 0) mm o oo ltac:(lia) ltac:(lia) ltac:(lia)) as [_ ->]. lia.
    + intros [|k] c o Hk Ho (r & Hr & Hnp & Hw); cbn in Hk; [|destruct k; discriminate].
      exfalso. specialize (G3 r Hr). unfold within in Hw. rewrite Ht, S1 in G3. lia.
  - destruct (rev_last _ _ _ ER) as [HL Hne]. specialize (S5 Hne).
    set (n := length (j_chunks d)) in *. assert (Hn : (0 < n)%nat) by (destruct (j_chunks d); [congruence|cbn in n; lia]).
    assert (Hln : ~ last = nid) by (intro; subst; apply Hni; eapply nth_error_In; eauto).
    unfold tail. cbn [j_start j_wsz j_resv j_end].
    destruct (Z.leb_spec (j_start d + j_wsz d + j_resv d) (j_end d + cs)) as [_|HH]; [|exfalso; unfold tailv in *; lia].
    change (j_start d + j_wsz d + j_resv d) with (tailv d).
    destruct (place cs (q + Z.of_nat n - 1) 1 (tailv d) Hcs ltac:(lia) ltac:(lia)) as (k0 & o & Ht & Ho & Hk0).
    assert (k0 = 0)%nat by lia. subst k0. replace (q + Z.of_nat n - 1 + Z.of_nat 0) with (q + Z.of_nat n - 1) in Ht by lia.
    rewrite Ht, mod_at by lia.
    destruct (Z.eqb_spec o 0) as [->|Ho0]; [exfalso; lia|].
    eexists _, _; split; [reflexivity|]. cbn [j_start j_end j_chunks].
    set (d1 := JD _ _ _ _ _ _).
    assert (Htv : tailv d1 = j_end d) by (unfold d1, tailv in *; cbn [j_start j_wsz j_resv] in *; lia).
    split; [|ands; try reflexivity; try assumption; intro H; now destruct (j_chunks d)].
    assert (Hlen : length (j_chunks d ++ [nid]) = S n) by (rewrite app_length; cbn; unfold n; lia).
    exists q, s0. cbn [w_d w_pv w_mem]. split; [|split; [|split]].
    + constructor; unfold d1; cbn [j_start j_chunks j_total j_end]; fold d1; try rewrite Htv; try rewrite Hlen; try lia.
      * intro H. now destruct (j_chunks d).
      * intros k c Hk Hlast. apply nth_error_app_last in Hk. destruct Hk as [[Hlt _]|[_ ->]]; [fold n in Hlt; lia|].
        rewrite put_priv_ne by auto. now rewrite Hpv.
      * intros k c Hk Hnl. apply nth_error_app_last in Hk. fold n in Hk. destruct Hk as [[Hlt Hk]|[-> _]]; [|lia].
        destruct (Nat.eq_dec k (n - 1)) as [->|Hkn].
        -- assert (c = last) by congruence. subst c. rewrite put_priv_eq. cbn. lia.
        -- rewrite put_priv_ne; [apply (S8 k c Hk); lia|]. intro. subst c. apply Hkn. eapply nodup_nth_eq; eauto.
      * intros c Hk. apply nth_error_app_last in Hk. fold n in Hk. destruct Hk as [[Hlt Hk]|[H _]]; [|lia].
        destruct (N.eq_dec c last) as [->|Hcl].
        -- rewrite put_priv_eq. cbn. assert (0 = n - 1)%nat by (eapply nodup_nth_eq; eauto).
           assert (n = 1)%nat by lia. rewrite H0 in *. cbn in Ht. destruct S5 as [_ S5]. rewrite S1 in S5. lia.
        -- rewrite put_priv_ne by auto. apply S9; auto.
      * apply nodup_app1; auto.
    + constructor.
      * intros k c Hk. unfold d1 in Hk; cbn [j_chunks] in Hk. apply nth_error_app_last in Hk. fold n in Hk.
        unfold d1; cbn [j_chunks].
        destruct Hk as [[Hlt Hk]|[-> ->]].
        -- destruct (Nat.eq_dec k (n - 1)) as [->|Hkn].
           ++ assert (c = last) by congruence. subst c. rewrite put_priv_eq. cbn [pv_next].
              replace (S (n - 1)) with n by lia. unfold n. now rewrite nth_error_app2, Nat.sub_diag by lia.
           ++ rewrite put_priv_ne; [|intro; subst c; apply Hkn; eapply nodup_nth_eq; eauto].
              rewrite nth_error_app1 by (fold n; lia). now apply C1.
        -- rewrite put_priv_ne by auto. rewrite Hpv. cbn [pv_next priv_fresh].
           destruct (nth_error (j_chunks d ++ [nid]) (S n)) eqn:E; [|reflexivity].
           assert (S n < length (j_chunks d ++ [nid]))%nat by (apply nth_error_Some; congruence). lia.
      * intros k c Hk. unfold d1 in Hk; cbn [j_chunks] in Hk. apply nth_error_app_last in Hk. fold n in Hk.
        destruct Hk as [[Hlt Hk]|[-> ->]].
        -- destruct (C2 k c Hk) as (A1 & A2 & A3). destruct (N.eq_dec c last) as [->|Hcl].
           ++ rewrite put_priv_eq. cbn. auto.
           ++ rewrite put_priv_ne by auto. auto.
        -- rewrite put_priv_ne by auto. rewrite Hpv. cbn.
           destruct n; [lia|]. ands; [reflexivity|lia|assumption].
      * intros c Hc'. unfold d1 in Hc'; cbn [j_chunks] in Hc'.
        rewrite put_priv_ne; [apply C3; intro; apply Hc', in_or_app; now left|].
        intro. subst. apply Hc', in_or_app. left. eapply nth_error_In; eauto.
      * intro H. unfold d1 in H; cbn [j_chunks] in H. apply in_app_or in H. destruct H as [H|[H|[]]]; auto.
    + constructor; unfold d1; cbn [j_start j_chunks j_resv]; auto.
      * fold d1. rewrite Htv. intros r Hr. specialize (G3 r Hr). lia.
      * intros r k c o' Hr Hk Hx Ho'. apply nth_error_app_last in Hk. fold n in Hk.
        destruct (G2 r Hr) as (mm & oo & Hf & Hoo & Hs & Hlt).
        destruct (slot_unique cs (q + Z.of_nat k) mm o' oo ltac:(lia) ltac:(lia) ltac:(lia)) as [Hmm ->]. subst mm.
        destruct Hk as [[Hltk Hk]|[-> ->]].
        -- destruct (N.eq_dec c last) as [->|Hcl].
           ++ rewrite put_priv_eq. cbn. assert (k = n - 1)%nat by (eapply nodup_nth_eq; eauto).
              specialize (G3 r Hr). rewrite Hf in G3. subst k. replace (q + Z.of_nat (n - 1)) with (q + Z.of_nat n - 1) in * by lia. lia.
           ++ rewrite put_priv_ne by auto. apply (G5 r k c oo); auto.
        -- rewrite put_priv_ne by auto. rewrite Hpv. cbn. lia.
    + intros k c o' Hk Ho' Hw. unfold d1 in Hk; cbn [j_chunks] in Hk. apply nth_error_app_last in Hk. fold n in Hk.
      destruct Hk as [[Hltk Hk]|[-> ->]]; [now apply CO|].
      exfalso. destruct Hw as (r & Hr & _ & Hw). specialize (G3 r Hr). unfold within in Hw. lia.
Qed.

Lemma inv_tail : forall cs ld w g, 0 < cs -> inv cs ld w g -> tailv (w_d w) <= j_end (w_d w) /\ j_start (w_d w) <= tailv (w_d w).
Proof.
  intros cs ld [d pv m] g Hcs (q & s0 & [S1 S2 S3 S4 S5 S6 S7 S8 S9 S10] & _). cbn [w_d w_pv w_mem] in *.
  destruct (j_chunks d) as [|c l] eqn:E.
  - destruct (S6 eq_refl) as [-> Ht]. cbn [length] in *. lia.
  - destruct (S5 ltac:(discriminate)). lia.
Qed.

Lemma tail_some : forall cs ld w g, 0 < cs -> inv cs ld w g -> tail (w_d w) = Some (tailv (w_d w)).
Proof.
  intros cs ld w g Hcs I. destruct (inv_tail cs ld w g Hcs I) as [H _]. unfold tail. fold (tailv (w_d w)).
  destruct (Z.leb_spec (tailv (w_d w)) (j_end (w_d w))); [reflexivity|lia].
Qed.

(** Reserving once there is room in the last chunk. *)
Lemma reserve_inv : forall cs ld w g sz, 0 < cs -> inv cs ld w g -> 0 < sz < cs ->
  j_chunks (w_d w) <> [] -> tailv (w_d w) + sz < j_end (w_d w) ->
  let d := w_d w in let x := tailv d in
  let d' := JD (j_start d) (j_wsz d) (j_resv d + sz) (j_end d) (j_total d) (j_chunks d) in
  inv cs ld (World d' (w_pv w) (w_mem w)) (Ghost (g_ranges g ++ [(x, sz)]) (g_pending g ++ [(x, sz)]) (g_file g)) /\
  (forall r, In r (g_ranges g) -> before r (x, sz)) /\ slotted cs (x, sz) /\ j_start d <= x.
Proof.
  intros cs ld [d pv m] g sz Hcs (q & s0 & SH & CH & GR & CO) Hsz Hne Hroom. cbn [w_d w_pv w_mem] in *.
  set (x := tailv d). set (d' := JD _ _ _ _ _ _). set (n := length (j_chunks d)) in *.
  destruct SH as [S1 S2 S3 S4 S5 S6 S7 S8 S9 S10]. destruct GR as [G1 G2 G3 G4 G5 G6 G7 G8].
  destruct (S5 Hne) as [Ht Hst]. fold n in Ht, S4.
  assert (Htv : tailv d' = tailv d + sz) by (unfold tailv, d'; cbn; lia).
  destruct (place cs (q + Z.of_nat n - 1) 1 (tailv d) Hcs ltac:(lia) ltac:(lia)) as (k0 & o & Hx & Ho & Hk0).
  assert (k0 = 0)%nat by lia. subst k0. replace (q + Z.of_nat n - 1 + Z.of_nat 0) with (q + Z.of_nat n - 1) in Hx by lia.
  assert (Hb : forall r, In r (g_ranges g) -> before r (x, sz)) by (intros r Hr; exact (G3 r Hr)).
  assert (Hsl : slotted cs (x, sz)) by (exists (q + Z.of_nat n - 1), o; cbn; unfold x; lia).
  split; [|auto].
  exists q, s0. cbn [w_d w_pv w_mem]. split; [|split; [|split]].
  - constructor; try assumption.
    + intros _. rewrite Htv. unfold d'; cbn [j_chunks j_end j_start]. fold n. lia.
    + unfold d'; cbn. intro; contradiction.
  - assumption.
  - constructor; cbn [g_ranges g_pending].
    + apply inc_app1; assumption.
    + intros r Hr. apply in_app_or in Hr. destruct Hr as [Hr|[<-|[]]]; auto.
    + intros r Hr. rewrite Htv. apply in_app_or in Hr. destruct Hr as [Hr|[<-|[]]]; [specialize (G3 r Hr); lia|cbn; unfold x; lia].
    + intros r Hr. apply in_app_or in Hr. destruct Hr as [Hr|[<-|[]]]; [exact (G4 r Hr)|right; unfold d', x; cbn; lia].
    + unfold d'; cbn [j_chunks]. intros r k c o' Hr Hk Hf Ho'. apply in_app_or in Hr.
      destruct Hr as [Hr|[<-|[]]]; [apply (G5 r k c o'); auto|]. cbn in *.
      destruct (slot_unique cs (q + Z.of_nat n - 1) (q + Z.of_nat k) o o' ltac:(lia) ltac:(lia) ltac:(unfold x in *; lia)) as [Hk' ->].
      assert (S k = n) by lia. rewrite (S7 k c Hk) by assumption. lia.
    + apply inc_app1; [assumption|]. intros a Ha. apply Hb, (G7 a Ha).
    + intros r Hr. apply in_app_or in Hr. destruct Hr as [Hr|[<-|[]]].
      * destruct (G7 r Hr). split; [apply in_or_app; now left|assumption].
      * split; [apply in_or_app; right; now left|unfold d', x; cbn; lia].
    + unfold d'; cbn. rewrite sum_app, G8. cbn. lia.
  - intros k c o' Hk Ho' (r & Hr & Hnp & Hw). cbn [g_ranges g_pending g_file] in *. apply CO; [assumption|assumption|].
    apply in_app_or in Hr. destruct Hr as [Hr|Hr].
    + exists r. split; [assumption|]. split; [|assumption]. intro. apply Hnp, in_or_app. now left.
    + exfalso. apply Hnp, in_or_app. now right.
Qed.

Lemma alloc_inv : forall cs ld w g sz nid, 0 < cs -> inv cs ld w g -> legal cs ld w g (OAlloc sz nid) ->
  exists w' x, step cs ld w (OAlloc sz nid) = Some (w', Some x) /\
    inv cs ld w' (gstep g (OAlloc sz nid) (Some x)) /\
    (forall r, In r (g_ranges g) -> before r (x, sz)) /\ slotted cs (x, sz) /\ j_start (w_d w') <= x /\
    tailv (w_d w') = x + sz.
Proof.
  intros cs ld w g sz nid Hcs I L. cbn [step]. unfold alloc.
  assert (Hsz : 0 < sz < cs) by apply L.
  destruct (Z.leb_spec cs sz); [lia|].
  rewrite (tail_some cs ld w g Hcs I).
  destruct (Z.leb_spec (j_end (w_d w)) (tailv (w_d w) + sz)) as [F|F].
  - destruct (append_chunk_spec cs ld w g sz nid Hcs I L F) as (d1 & wr & E & I1 & A1 & A2 & A3 & A4).
    rewrite E. assert (T := tail_some _ _ _ _ Hcs I1). cbn [w_d] in T. rewrite T.
    destruct (Z.leb_spec (j_end d1) (tailv d1 + sz)); [lia|].
    destruct (inv_tail _ _ _ _ Hcs I1) as [_ B]. cbn [w_d] in B.
    destruct (Z.ltb_spec (tailv d1) (j_start d1)); [lia|].
    destruct (reserve_inv cs ld _ g sz Hcs I1 Hsz A4 ltac:(cbn [w_d]; lia)) as (R1 & R2 & R3 & R4).
    cbn [w_d w_pv w_mem put_privs fold_left] in *.
    eexists _, _; split; [reflexivity|]. cbn [gstep w_d j_start]. ands; auto. unfold tailv; cbn [j_start j_wsz j_resv]; lia.
  - destruct (inv_tail _ _ _ _ Hcs I) as [A B].
    destruct (Z.ltb_spec (tailv (w_d w)) (j_start (w_d w))); [lia|].
    assert (Hne : j_chunks (w_d w) <> []).
    { intro E. destruct I as (q & s0 & SH & _). destruct (sh_empty _ _ _ _ _ SH E) as [-> Ht].
      assert (Hs := sh_start _ _ _ _ _ SH). assert (He := sh_end _ _ _ _ _ SH). rewrite E in He. cbn in He. lia. }
    destruct (reserve_inv cs ld w g sz Hcs I Hsz Hne ltac:(lia)) as (R1 & R2 & R3 & R4).
    eexists _, _; split; [reflexivity|]. cbn [gstep w_d j_start put_privs fold_left] in *. ands; auto. unfold tailv; cbn [j_start j_wsz j_resv]; lia.
Qed.

(** ** Writing *)
Lemma put_bytes_out : forall l f o x, x < o \/ o + Z.of_nat (length l) <= x -> put_bytes f o l x = f x.
Proof.
  induction l as [|b l IH]; intros f o x H; cbn [put_bytes length] in *; [reflexivity|].
  rewrite IH by lia. destruct (Z.eqb_spec x o); [lia|reflexivity].
Qed.

Lemma put_bytes_in : forall l f o x k, x = o + Z.of_nat k -> (k < length l)%nat -> put_bytes f o l x = nth k l 0%N.
Proof.
  induction l as [|b l IH]; intros f o x k Hx Hk; cbn [put_bytes length] in *; [lia|].
  destruct k as [|k].
  - rewrite put_bytes_out by lia. destruct (Z.eqb_spec x o); [reflexivity|lia].
  - cbn [nth]. apply (IH _ _ _ k); lia.
Qed.

Lemma put_bytes_shift : forall l f g o p x, put_bytes f o l (o + x) = put_bytes g p l (p + x) \/
  (x < 0 \/ Z.of_nat (length l) <= x).
Proof.
  intros l f g o p x. destruct (Z.lt_ge_cases x 0); [right; lia|].
  destruct (Z.le_gt_cases (Z.of_nat (length l)) x); [right; lia|]. left.
  rewrite (put_bytes_in l f o _ (Z.to_nat x)) by lia. rewrite (put_bytes_in l g p _ (Z.to_nat x)) by lia. reflexivity.
Qed.

Lemma drop_range_in : forall x l r, In r (drop_range x l) <-> In r l /\ fst r <> x.
Proof.
  intros x l r. unfold drop_range. rewrite filter_In. split; intros [A B]; split; auto.
  - destruct (Z.eqb_spec (fst r) x); [discriminate|assumption].
  - destruct (Z.eqb_spec (fst r) x); [contradiction|reflexivity].
Qed.

Lemma pending_place : forall cs ld w g r, 0 < cs -> inv cs ld w g -> In r (g_ranges g) -> j_start (w_d w) <= fst r ->
  exists q s0 k c o, j_start (w_d w) = q * cs + s0 /\ 0 <= s0 < cs /\ nth_error (j_chunks (w_d w)) k = Some c /\
    fst r = (q + Z.of_nat k) * cs + o /\ 0 <= o /\ 0 < snd r /\ o + snd r < cs /\
    shape cs (w_d w) (w_pv w) q s0 /\ chain ld (j_chunks (w_d w)) (w_pv w) /\
    granges cs (w_d w) (w_pv w) g q /\ content cs (w_d w) (w_mem w) g q.
Proof.
  intros cs ld w g r Hcs (q & s0 & SH & CH & GR & CO) Hr Hst.
  destruct (gr_slot _ _ _ _ _ GR r Hr) as (mm & o & Hf & Ho & Hs & Hlt).
  assert (Ht := gr_tail _ _ _ _ _ GR r Hr).
  assert (Hne : j_chunks (w_d w) <> []).
  { intro E. destruct (sh_empty _ _ _ _ _ SH E) as [-> E2]. lia. }
  destruct (sh_tail _ _ _ _ _ SH Hne) as [[T1 T2] T3].
  assert (Hs1 := sh_start _ _ _ _ _ SH). assert (Hs0 := sh_s0 _ _ _ _ _ SH). assert (He := sh_end _ _ _ _ _ SH).
  assert (Hm : q <= mm < q + Z.of_nat (length (j_chunks (w_d w)))) by nia.
  destruct (nth_error_lt (j_chunks (w_d w)) (Z.to_nat (mm - q)) ltac:(lia)) as (c & Hc).
  exists q, s0, (Z.to_nat (mm - q)), c, o. rewrite Z2Nat.id by lia.
  replace (q + (mm - q)) with mm by lia. ands; auto; lia.
Qed.

Lemma write_inv : forall cs ld w g x data, 0 < cs -> inv cs ld w g -> legal cs ld w g (OWrite x data) ->
  exists w', step cs ld w (OWrite x data) = Some (w', None) /\ inv cs ld w' (gstep g (OWrite x data) None) /\
    j_start (w_d w') = j_start (w_d w).
Proof.
  intros cs ld w g x data Hcs I L. cbn [legal] in L. set (len := Z.of_nat (length data)) in *.
  assert (Lr : In (x, len) (g_ranges g) /\ j_start (w_d w) <= x).
  { destruct I as (q & s0 & SH & CH & GR & CO). apply (gr_pend _ _ _ _ _ GR _ L). }
  destruct Lr as [Lr Lst].
  destruct (pending_place cs ld w g (x, len) Hcs I Lr Lst) as
    (q & s0 & k & c & o & Hs & Hs0 & Hk & Hx & Ho & Hlen & Hlt & SH & CH & GR & CO).
  cbn [fst snd] in *. cbn [step]. unfold pwrite. fold len.
  destruct GR as [G1 G2 G3 G4 G5 G6 G7 G8].
  assert (Hpos : forall r, In r (g_pending g) -> 0 < snd r).
  { intros r Hr. destruct (G2 r) as (mm & oo & _ & _ & Hp & _); [apply (G7 r Hr)|exact Hp]. }
  assert (Hle : snd (x, len) <= sum (g_pending g)) by (apply sum_in; assumption). cbn in Hle.
  destruct (Z.ltb_spec (j_resv (w_d w)) len); [lia|].
  rewrite Hx, (otc_at cs (w_d w) q s0 k c o) by (auto; lia).
  destruct (Z.ltb_spec (cs - o) len); [lia|].
  eexists; split; [reflexivity|]. cbn [gstep w_d j_start]. split; [|reflexivity].
  rewrite <- Hx.
  assert (Htv : forall a b e f h, tailv (JD (j_start (w_d w)) (j_wsz (w_d w) + a) (j_resv (w_d w) - a) b e f) = h -> tailv (w_d w) = h)
    by (intros; unfold tailv in *; cbn in *; lia).
  exists q, s0. cbn [w_d w_pv w_mem]. split; [|split; [|split]].
  - destruct SH as [S1 S2 S3 S4 S5 S6 S7 S8 S9 S10]. constructor; cbn [j_start j_chunks j_total j_end]; auto.
    + rewrite <- (Htv _ _ _ _ _ eq_refl). assumption.
    + rewrite <- (Htv _ _ _ _ _ eq_refl). assumption.
  - assumption.
  - constructor; cbn [g_ranges g_pending j_start j_chunks j_resv]; auto.
    + rewrite <- (Htv _ _ _ _ _ eq_refl). assumption.
    + apply inc_filter. assumption.
    + intros r Hr. apply drop_range_in in Hr. apply (G7 r), Hr.
    + rewrite (sum_drop _ x len) by assumption. lia.
  - intros k' c' o' Hk' Ho' Hw. cbn [g_file]. unfold write_media. cbn [j_chunks] in Hk'.
    set (y := (q + Z.of_nat k') * cs + o') in *.
    destruct (Z.lt_ge_cases y x) as [Hy|Hy]; [|destruct (Z.lt_ge_cases y (x + len)) as [Hy2|Hy2]].
    + rewrite put_bytes_out by lia.
      assert (E : (if N.eqb c' c then put_bytes (w_mem w c) o data else w_mem w c') o' = w_mem w c' o').
      { destruct (N.eqb_spec c' c) as [->|]; [|reflexivity].
        assert (k' = k) by (eapply nodup_nth_eq; eauto; apply SH). subst k'. apply put_bytes_out. unfold y in Hy. lia. }
      rewrite E. apply CO; auto. destruct Hw as (r & Hr & Hnp & Hw). exists r. split; [exact Hr|]. split; [|exact Hw].
      intro Hp. apply Hnp. cbn [g_pending]. apply drop_range_in. split; [assumption|]. cbn [g_ranges] in Hr. intro Hf.
      assert (r = (x, len)).
      { destruct (inc_before _ _ _ G1 Hr Lr) as [E2|[E2|E2]]; [assumption| |]; unfold before in E2; cbn in E2.
        - specialize (Hpos r Hp). lia.
        - lia. }
      subst r. unfold within in Hw. cbn in Hw. fold y in Hw. lia.
    + assert (k' = k).
      { destruct (slot_unique cs (q + Z.of_nat k') (q + Z.of_nat k) o' (o + (y - x)) Ho' ltac:(lia) ltac:(unfold y in *; lia)). lia. }
      subst k'. assert (c' = c) by congruence. subst c'. rewrite N.eqb_refl.
      replace o' with (o + (y - x)) by (unfold y in *; lia). replace y with (x + (y - x)) at 2 by lia.
      destruct (put_bytes_shift data (w_mem w c) (g_file g) o x (y - x)) as [E|E]; [exact E|]. unfold len in *. lia.
    + rewrite put_bytes_out by (fold len; lia).
      assert (E : (if N.eqb c' c then put_bytes (w_mem w c) o data else w_mem w c') o' = w_mem w c' o').
      { destruct (N.eqb_spec c' c) as [->|]; [|reflexivity].
        assert (k' = k) by (eapply nodup_nth_eq; eauto; apply SH). subst k'. apply put_bytes_out. fold len. unfold y in *. lia. }
      rewrite E. apply CO; auto. destruct Hw as (r & Hr & Hnp & Hw). exists r. split; [exact Hr|]. split; [|exact Hw].
      intro Hp. apply Hnp. cbn [g_pending]. apply drop_range_in. split; [assumption|]. cbn [g_ranges] in Hr. intro Hf.
      assert (r = (x, len)).
      { destruct (inc_before _ _ _ G1 Hr Lr) as [E2|[E2|E2]]; [assumption| |]; unfold before in E2; cbn in E2.
        - specialize (Hpos r Hp). lia.
        - lia. }
      subst r. unfold within in Hw. cbn in Hw. fold y in Hw. lia.
Qed.

(** ** Other users *)
Lemma other_inv : forall cs ld w g c p o data, 0 < cs -> inv cs ld w g -> legal cs ld w g (OOther c p o data) ->
  exists w', step cs ld w (OOther c p o data) = Some (w', None) /\ inv cs ld w' g /\ w_d w' = w_d w.
Proof.
  intros cs ld [d pv m] g c p o data Hcs (q & s0 & SH & CH & GR & CO) [L1 L2]. cbn [w_d w_pv w_mem step legal] in *.
  eexists; split; [reflexivity|]. split; [|reflexivity].
  assert (E : forall k c', nth_error (j_chunks d) k = Some c' -> c' <> c).
  { intros k c' Hk ->. apply L1. eapply nth_error_In; eauto. }
  exists q, s0. cbn [w_d w_pv w_mem]. split; [|split; [|split]].
  - destruct SH as [S1 S2 S3 S4 S5 S6 S7 S8 S9 S10]. constructor; auto.
    + intros k c' Hk. rewrite put_priv_ne by eauto. eauto.
    + intros k c' Hk. rewrite put_priv_ne by eauto. eauto.
    + intros c' Hk. rewrite put_priv_ne by eauto. eauto.
  - destruct CH as [C1 C2 C3 C4]. constructor; auto.
    + intros k c' Hk. rewrite put_priv_ne by eauto. eauto.
    + intros k c' Hk. rewrite put_priv_ne by eauto. eauto.
    + intros c' Hc'. destruct (N.eq_dec c' c) as [->|Hne]; [rewrite put_priv_eq; assumption|].
      rewrite put_priv_ne by assumption. auto.
  - destruct GR as [G1 G2 G3 G4 G5 G6 G7 G8]. constructor; auto.
    intros r k c' o' Hr Hk. rewrite put_priv_ne by eauto. eauto.
  - intros k c' o' Hk Ho' Hw. unfold write_media. destruct (N.eqb_spec c' c) as [->|]; [|now apply CO].
    exfalso. now apply (E k c Hk).
Qed.

(** ** Truncation *)
Lemma release_split : forall cs pv total tail_off t l m idx cover,
  (idx + length l = total)%nat ->
  (forall i c, nth_error l i = Some c ->
     let lastc := Nat.eqb (idx + i) (total - 1) in
     let cov := if lastc then cover + Z.of_nat i * cs + tail_off mod cs else cover + Z.of_nat i * cs + cs in
     let hole := if lastc then 0 else cs - pv_eoc (pv c) in
     (cov <=? t) || (cov - hole <=? t) = Nat.ltb i m) ->
  release_loop cs pv total idx l cover tail_off t = (skipn m l, firstn m l).
Proof.
  intros cs pv total tail_off t; induction l as [|c l IH]; intros m idx cover Hlen H.
  - destruct m; reflexivity.
  - cbn [release_loop].
    assert (H0 := H 0%nat c eq_refl). cbn zeta in H0. rewrite Nat.add_0_r in H0.
    replace (cover + Z.of_nat 0 * cs) with cover in H0 by lia.
    set (lastc := Nat.eqb idx (total - 1)) in *.
    set (cover' := if lastc then cover + tail_off mod cs else cover + cs) in *.
    rewrite (IH (m - 1)%nat (S idx) cover').
    + rewrite H0. destruct m as [|m]; cbn [Nat.ltb Nat.leb skipn firstn]; [reflexivity|].
      replace (S m - 1)%nat with m by lia. destruct (Nat.ltb_spec 0 (S m)); [reflexivity|lia].
    + cbn [length] in Hlen. lia.
    + intros i c' Hi. assert (Hi' := H (S i) c' Hi). cbn zeta in *.
      assert (El : lastc = false).
      { unfold lastc. apply Nat.eqb_neq. cbn [length] in Hlen.
        assert (i < length l)%nat by (apply nth_error_Some; congruence). lia. }
      unfold cover'. rewrite El. replace (idx + S i)%nat with (S idx + i)%nat in Hi' by lia.
      replace (cover + cs + Z.of_nat i * cs) with (cover + Z.of_nat (S i) * cs) by lia.
      rewrite Hi'. destruct (Nat.ltb_spec (S i) m), (Nat.ltb_spec i (m - 1)); try reflexivity; lia.
Qed.

Lemma put_privs_other : forall ws f i, ~ In i (map fst ws) -> put_privs f ws i = f i.
Proof.
  induction ws as [|[c p] ws IH]; intros f i H; [reflexivity|]. cbn [put_privs fold_left]. fold (put_privs (put_priv f (c, p)) ws).
  rewrite IH; [|intro; apply H; now right]. apply put_priv_ne. intro. apply H. now left.
Qed.

Lemma release_in : forall cs now gone f i, In i gone -> put_privs f (flat_map (release_writes cs now) gone) i = priv_fresh cs now.
Proof.
  intros cs now; induction gone as [|c gone IH]; intros f i H; [contradiction|].
  cbn [flat_map release_writes app put_privs fold_left].
  fold (put_privs (put_priv (put_priv f (c, priv0)) (c, priv_fresh cs now)) (flat_map (release_writes cs now) gone)).
  destruct (in_dec N.eq_dec i gone) as [Hi|Hi]; [now apply IH|].
  destruct H as [<-|H]; [|contradiction]. rewrite put_privs_other; [now rewrite put_priv_eq|].
  intro G. apply in_map_iff in G. destruct G as ((c' & p) & <- & G). apply in_flat_map in G.
  destruct G as (y & Hy & [G|[G|[]]]); injection G as -> _; contradiction.
Qed.

Lemma release_out : forall cs now gone f i, ~ In i gone -> put_privs f (flat_map (release_writes cs now) gone) i = f i.
Proof.
  intros cs now gone f i H. apply put_privs_other. intro G. apply in_map_iff in G.
  destruct G as ((c' & p) & <- & G). apply in_flat_map in G.
  destruct G as (y & Hy & [G|[G|[]]]); injection G as -> _; contradiction.
Qed.

Lemma nth_error_skipn : forall {A} m (l : list A) j, nth_error (skipn m l) j = nth_error l (m + j).
Proof. induction m as [|m IH]; intros [|a l] j; cbn; try reflexivity; [now destruct j|apply IH]. Qed.

Lemma skipn_firstn_disj : forall {A} m (l : list A) c, NoDup l -> In c (skipn m l) -> In c (firstn m l) -> False.
Proof.
  intros A m l c H. rewrite <- (firstn_skipn m l) in H. revert H.
  induction (firstn m l) as [|a f IH]; intros H Hs Hf; [contradiction|]. cbn in H. inversion H; subst.
  destruct Hf as [<-|Hf]; [|now apply IH]. apply H2, in_or_app. now right.
Qed.

Lemma cut_inv : forall cs ld d pv m g q s0 k h s' wsz' now,
  0 < cs -> shape cs d pv q s0 -> chain ld (j_chunks d) pv -> granges cs d pv g q -> content cs d m g q ->
  nth_error (j_chunks d) k = Some h -> 0 <= s' < cs -> s' <= pv_eoc (pv h) ->
  let st := (q + Z.of_nat k) * cs + s' in
  j_start d <= st <= tailv d ->
  (forall r, In r (g_ranges g) -> fst r + snd r <= st \/ st <= fst r) ->
  (forall r, In r (g_pending g) -> st <= fst r) ->
  st + wsz' + j_resv d = tailv d -> (0 < now)%N ->
  inv cs ld (World (JD st wsz' (j_resv d) (j_end d) (Z.of_nat (length (j_chunks d) - k) * cs) (skipn k (j_chunks d)))
                   (put_privs (put_priv pv (h, Priv ld true (pv_created (pv h)) (pv_eoc (pv h)) (pv_next (pv h))))
                              (flat_map (release_writes cs now) (firstn k (j_chunks d)))) m) g.
Proof.
  intros cs ld d pv m g q s0 k h s' wsz' now Hcs SH CH GR CO Hh Hs' Heoc st Hst Hlive Hpend Hw Hnow.
  set (n := length (j_chunks d)). assert (Hkn : (k < n)%nat) by (apply nth_error_Some; congruence).
  destruct SH as [S1 S2 S3 S4 S5 S6 S7 S8 S9 S10]. destruct CH as [C1 C2 C3 C4]. destruct GR as [G1 G2 G3 G4 G5 G6 G7 G8].
  fold n in S3, S4, S5, S7, S8.
  assert (Hne : j_chunks d <> []) by (intro E; unfold n in Hkn; rewrite E in Hkn; cbn in Hkn; lia).
  assert (Hlen : length (skipn k (j_chunks d)) = (n - k)%nat) by (rewrite skipn_length; reflexivity).
  set (pv' := put_privs _ _).
  assert (Hpv : forall j c, nth_error (skipn k (j_chunks d)) j = Some c ->
            pv' c = if Nat.eqb j 0 then Priv ld true (pv_created (pv c)) (pv_eoc (pv c)) (pv_next (pv c)) else pv c).
  { intros j c Hj. unfold pv'. rewrite release_out.
    - rewrite nth_error_skipn in Hj. destruct j as [|j]; cbn [Nat.eqb].
      + rewrite Nat.add_0_r in Hj. assert (c = h) by congruence. subst c. apply put_priv_eq.
      + apply put_priv_ne. intro. subst c. assert (k + S j = k)%nat by (eapply nodup_nth_eq; eauto). lia.
    - intro Hf. apply nth_error_In in Hj. eapply skipn_firstn_disj; eauto. }
  assert (He : forall j c, nth_error (skipn k (j_chunks d)) j = Some c -> pv_eoc (pv' c) = pv_eoc (pv c)).
  { intros j c Hj. rewrite (Hpv j c Hj). destruct (Nat.eqb j 0); reflexivity. }
  exists (q + Z.of_nat k), s'. cbn [w_d w_pv w_mem]. split; [|split; [|split]].
  - constructor; cbn [j_start j_chunks j_total j_end]; try rewrite Hlen; auto.
    + rewrite S4. f_equal. lia.
    + intros _. destruct (S5 Hne). unfold tailv; cbn [j_start j_wsz j_resv]. rewrite Hw. fold (tailv d).
      replace (q + Z.of_nat k + Z.of_nat (n - k) - 1) with (q + Z.of_nat n - 1) by lia. lia.
    + intro E. apply (f_equal (@length N)) in E. rewrite Hlen in E. cbn in E. lia.
    + intros j c Hj Hl. rewrite (He j c Hj). rewrite nth_error_skipn in Hj. apply (S7 _ _ Hj). lia.
    + intros j c Hj Hl. rewrite (He j c Hj). rewrite nth_error_skipn in Hj. apply (S8 _ _ Hj). lia.
    + intros c Hj. rewrite (He 0%nat c Hj). rewrite nth_error_skipn, Nat.add_0_r in Hj. assert (c = h) by congruence. now subst.
    + rewrite <- (firstn_skipn k (j_chunks d)) in S10. clear -S10.
      induction (firstn k (j_chunks d)) as [|a f IH]; [assumption|]. inversion S10; subst. auto.
  - constructor; cbn [j_chunks].
    + intros j c Hj. rewrite (Hpv j c Hj). assert (E : pv_next (if Nat.eqb j 0 then Priv ld true (pv_created (pv c)) (pv_eoc (pv c)) (pv_next (pv c)) else pv c) = pv_next (pv c))
        by (destruct (Nat.eqb j 0); reflexivity).
      rewrite E. rewrite nth_error_skipn in *. rewrite (C1 _ _ Hj). replace (S (k + j))%nat with (k + S j)%nat by lia. reflexivity.
    + intros j c Hj. rewrite (Hpv j c Hj). rewrite nth_error_skipn in Hj. destruct (C2 _ _ Hj) as (A1 & A2 & A3).
      destruct j as [|j]; cbn [Nat.eqb pv_head pv_logdev pv_created]; [auto|].
      ands; [|lia|assumption]. rewrite A1. apply Nat.eqb_neq. lia.
    + intros c Hc. unfold pv'. destruct (in_dec N.eq_dec c (firstn k (j_chunks d))) as [Hf|Hf].
      * rewrite release_in by assumption. cbn. intros [? _]. discriminate.
      * rewrite release_out by assumption. assert (Hnc : ~ In c (j_chunks d)).
        { rewrite <- (firstn_skipn k (j_chunks d)). intro G. apply in_app_or in G. tauto. }
        rewrite put_priv_ne; [auto|]. intro. subst c. apply Hnc. eapply nth_error_In; eauto.
    + intro G. apply C4. rewrite <- (firstn_skipn k (j_chunks d)). apply in_or_app. now right.
  - constructor; cbn [j_start j_chunks j_resv]; auto.
    + unfold tailv; cbn [j_start j_wsz j_resv]. rewrite Hw. exact G3.
    + intros r j c o Hr Hj Hx Ho. rewrite (He j c Hj). rewrite nth_error_skipn in Hj.
      apply (G5 r (k + j)%nat c o); auto. rewrite Hx. f_equal. f_equal. lia.
    + intros r Hr. split; [apply (G7 r Hr)|apply Hpend; assumption].
  - intros j c o Hj Ho Hwr. cbn [j_chunks] in Hj. rewrite nth_error_skipn in Hj.
    replace (q + Z.of_nat k + Z.of_nat j) with (q + Z.of_nat (k + j)) in * by lia. now apply CO.
Qed.

Lemma trunc_place : forall cs ld w g t now, 0 < cs -> inv cs ld w g -> legal cs ld w g (OTrunc t now) ->
  exists q s0 k c o, shape cs (w_d w) (w_pv w) q s0 /\ chain ld (j_chunks (w_d w)) (w_pv w) /\
    granges cs (w_d w) (w_pv w) g q /\ content cs (w_d w) (w_mem w) g q /\
    nth_error (j_chunks (w_d w)) k = Some c /\ t = (q + Z.of_nat k) * cs + o /\ 0 <= o < cs /\
    o <= pv_eoc (w_pv w c) /\ t <= tailv (w_d w) /\
    (forall r, In r (g_ranges g) -> fst r + snd r <= t \/ t <= fst r).
Proof.
  intros cs ld [d pv m] g t now Hcs (q & s0 & SH & CH & GR & CO) (L1 & L2 & (r & Hr & Ht) & L4). cbn [w_d w_pv w_mem] in *.
  destruct (gr_slot _ _ _ _ _ GR r Hr) as (mm & oo & Hf & Hoo & Hsz & Hlt).
  assert (Hrt := gr_tail _ _ _ _ _ GR r Hr).
  assert (Htt : t <= tailv d) by (destruct Ht; lia).
  assert (Hs1 := sh_start _ _ _ _ _ SH). assert (Hs0 := sh_s0 _ _ _ _ _ SH).
  assert (Ho : exists o, t = mm * cs + o /\ 0 <= o < cs /\ (o = oo \/ o = oo + snd r)).
  { destruct Ht as [->| ->]; [exists oo|exists (oo + snd r)]; lia. }
  destruct Ho as (o & Hto & Ho & Hoc).
  assert (Hne : j_chunks d <> []).
  { intro E. destruct (sh_empty _ _ _ _ _ SH E) as [-> E2].
    destruct Ht as [Ht|Ht]; [lia|].
    destruct (slot_unique cs mm q o 0 ltac:(lia) ltac:(lia) ltac:(lia)). lia. }
  destruct (sh_tail _ _ _ _ _ SH Hne) as [[T1 T2] T3]. assert (He := sh_end _ _ _ _ _ SH).
  assert (Hm : q <= mm < q + Z.of_nat (length (j_chunks d))) by nia.
  destruct (nth_error_lt (j_chunks d) (Z.to_nat (mm - q)) ltac:(lia)) as (c & Hc).
  exists q, s0, (Z.to_nat (mm - q)), c, o. rewrite Z2Nat.id by lia.
  replace (q + (mm - q)) with mm by lia. ands; auto; try lia.
  - destruct (gr_live _ _ _ _ _ GR r Hr) as [Hd|Hl].
    + assert (E : t = j_start d) by (destruct Ht; lia).
      destruct (slot_unique cs mm q o s0 ltac:(lia) ltac:(lia) ltac:(lia)) as [-> ->].
      rewrite Z.sub_diag in Hc. apply (sh_first _ _ _ _ _ SH c Hc).
    + assert (G := gr_eoc _ _ _ _ _ GR r (Z.to_nat (mm - q)) c oo Hr Hc).
      rewrite Z2Nat.id in G by lia. replace (q + (mm - q)) with mm in G by lia. specialize (G Hf ltac:(lia)). lia.
  - intros r' Hr'. destruct (gr_slot _ _ _ _ _ GR r' Hr') as (_ & _ & _ & _ & Hsz' & _).
    destruct (inc_before _ _ _ (gr_inc _ _ _ _ _ GR) Hr Hr') as [<-|[B|B]]; [destruct Ht; lia| |]; unfold before in B; lia.
Qed.

Lemma trunc_inv : forall cs ld w g t now, 0 < cs -> inv cs ld w g -> legal cs ld w g (OTrunc t now) ->
  exists d' ws gone j, truncate cs ld (w_d w) (w_pv w) t now = Some (d', ws, gone) /\
    inv cs ld (World d' (put_privs (w_pv w) ws) (w_mem w)) g /\
    t <= j_start d' /\ gone = firstn j (j_chunks (w_d w)) /\ j_chunks d' = skipn j (j_chunks (w_d w)) /\
    (forall r, In r (g_ranges g) -> t <= fst r -> j_start d' <= fst r) /\
    (forall r, In r (g_ranges g) -> t <= fst r -> forall x, within x r ->
       offset_to_chunk cs (w_d w) x <> None /\
       option_map (fun p => (fst (fst p), snd p)) (offset_to_chunk cs d' x) =
       option_map (fun p => (fst (fst p), snd p)) (offset_to_chunk cs (w_d w) x)) /\
    ((exists r, In r (g_ranges g) /\ t = fst r) -> j_start d' = t) /\
    (g_pending g = [] \/ j_end d' = j_end (w_d w)).
Proof.
  intros cs ld w g t now Hcs I L.
  destruct (trunc_place cs ld w g t now Hcs I L) as (q & s0 & k & c & o & SH & CH & GR & CO & Hk & Ht & Ho & Heo & Htt & Hlive).
  destruct L as (L1 & L2 & _ & L4). destruct w as [d pv m]. cbn [w_d w_pv w_mem] in *.
  assert (SH' := SH). assert (GR' := GR).
  destruct SH' as [S1 S2 S3 S4 S5 S6 S7 S8 S9 S10]. destruct GR' as [G1 G2 G3 G4 G5 G6 G7 G8].
  set (n := length (j_chunks d)) in *. assert (Hkn : (k < n)%nat) by (apply nth_error_Some; congruence).
  assert (Hne : j_chunks d <> []) by (intro E; unfold n in Hkn; rewrite E in Hkn; cbn in Hkn; lia).
  destruct (S5 Hne) as [T1 T2].
  destruct (place cs (q + Z.of_nat n - 1) 1 (tailv d) Hcs ltac:(lia) ltac:(lia)) as (k0 & to & Htl & Hto & Hk0).
  assert (k0 = 0)%nat by lia. subst k0. replace (q + Z.of_nat n - 1 + Z.of_nat 0) with (q + Z.of_nat n - 1) in Htl by lia.
  (* where live bytes are, before and after *)
  assert (Hwh : forall st wsz' total j, j_start d <= st -> st = (q + Z.of_nat j) * cs + (st - (q + Z.of_nat j) * cs) -> 0 <= st - (q + Z.of_nat j) * cs < cs ->
     (forall r, In r (g_ranges g) -> t <= fst r -> st <= fst r) ->
     forall r, In r (g_ranges g) -> t <= fst r -> forall x, within x r ->
       offset_to_chunk cs d x <> None /\
       option_map (fun p => (fst (fst p), snd p)) (offset_to_chunk cs (JD st wsz' (j_resv d) (j_end d) total (skipn j (j_chunks d))) x) =
       option_map (fun p => (fst (fst p), snd p)) (offset_to_chunk cs d x)).
  { intros st wsz' total j Hst Est Hst2 Hall r Hr Htr x Hx.
    destruct (G2 r Hr) as (mm & oo & Hf & Hoo & Hsz & Hlt). specialize (G3 r Hr).
    assert (Hsr := Hall r Hr Htr). unfold within in Hx.
    assert (Hm : q + Z.of_nat j <= mm < q + Z.of_nat n) by nia.
    destruct (nth_error_lt (j_chunks d) (Z.to_nat (mm - q)) ltac:(unfold n in Hm; lia)) as (cx & Hcx).
    assert (E1 := otc_at cs d q s0 (Z.to_nat (mm - q)) cx (oo + (x - fst r)) Hcs S1 S2 Hcx ltac:(lia)).
    rewrite Z2Nat.id in E1 by lia. replace ((q + (mm - q)) * cs + (oo + (x - fst r))) with x in E1 by lia.
    rewrite E1. split; [discriminate|].
    assert (Hcx2 : nth_error (skipn j (j_chunks d)) (Z.to_nat (mm - q - Z.of_nat j)) = Some cx).
    { rewrite nth_error_skipn. rewrite <- Hcx. f_equal. lia. }
    assert (E2 := otc_at cs (JD st wsz' (j_resv d) (j_end d) total (skipn j (j_chunks d))) (q + Z.of_nat j) _
                    (Z.to_nat (mm - q - Z.of_nat j)) cx (oo + (x - fst r)) Hcs Est Hst2 Hcx2 ltac:(lia)).
    rewrite Z2Nat.id in E2 by lia.
    replace ((q + Z.of_nat j + (mm - q - Z.of_nat j)) * cs + (oo + (x - fst r))) with x in E2 by lia.
    rewrite E2. reflexivity. }
  unfold truncate.
  destruct (Z.ltb_spec t (j_start d)); [lia|].
  assert (Eo : offset_to_chunk cs d t = Some (c, k, o)) by (rewrite Ht; apply (otc_at cs d q s0 k c o); auto; lia).
  assert (Er : round_down (j_start d) cs = q * cs) by (rewrite S1; apply round_down_at; lia).
  rewrite Eo, Er. fold n. change (j_start d + j_wsz d + j_resv d) with (tailv d).
  (* the decision about the chunk of t *)
  set (next := if pv_eoc (pv c) <=? o then nth_error (j_chunks d) (S k) else None).
  set (head := match next with Some c' => c' | None => c end). cbv zeta.
  set (pvh := put_priv pv (head, Priv ld true (pv_created (pv head)) (pv_eoc (pv head)) (pv_next (pv head)))).
  assert (Heq : forall i, pv_eoc (pvh i) = pv_eoc (pv i)).
  { intro i. unfold pvh, put_priv. cbn. destruct (N.eqb_spec i head) as [->|]; reflexivity. }
  assert (Hrel : forall j, (forall i c', nth_error (j_chunks d) i = Some c' ->
      (if Nat.eqb i (n - 1) then (tailv d <=? t) else ((q + Z.of_nat i) * cs + pv_eoc (pv c') <=? t)) = Nat.ltb i j) ->
      release_loop cs pvh n 0 (j_chunks d) (q * cs) (tailv d) t = (skipn j (j_chunks d), firstn j (j_chunks d))).
  { intros j Hj. apply release_split; [reflexivity|]. intros i c' Hi. cbn zeta. cbn [Nat.add].
    rewrite <- (Hj i c' Hi). rewrite Heq. destruct (Nat.eqb_spec i (n - 1)) as [->|Hin].
    - rewrite Htl at 1 2. rewrite mod_at by lia.
      replace (q * cs + Z.of_nat (n - 1) * cs + to) with (tailv d) by (rewrite Htl; nia).
      rewrite Z.sub_0_r. apply orb_diag.
    - assert (i < n)%nat by (apply nth_error_Some; congruence).
      assert (B := S8 i c' Hi ltac:(lia)).
      replace (q * cs + Z.of_nat i * cs + cs - (cs - pv_eoc (pv c'))) with ((q + Z.of_nat i) * cs + pv_eoc (pv c')) by lia.
      destruct (Z.leb_spec ((q + Z.of_nat i) * cs + pv_eoc (pv c')) t); [apply orb_true_r|].
      destruct (Z.leb_spec (q * cs + Z.of_nat i * cs + cs) t); [exfalso; lia|reflexivity]. }
  destruct (Nat.eq_dec k (n - 1)) as [Hkl|Hkl].
  - (* t in the last chunk *)
    assert (Hcs2 : pv_eoc (pv c) = cs) by (apply (S7 k c Hk); lia).
    assert (Hnx : next = None) by (unfold next; rewrite Hcs2; destruct (Z.leb_spec cs o); [lia|reflexivity]).
    unfold pvh, head in *. rewrite Hnx in *.
    replace (q + Z.of_nat n - 1) with (q + Z.of_nat k) in * by lia.
    destruct (Z.eq_dec t (tailv d)) as [Heqt|Hnt].
    + (* everything goes *)
      rewrite (Hrel n).
      2:{ intros i c' Hi. assert (i < n)%nat by (apply nth_error_Some; congruence).
          destruct (Nat.ltb_spec i n); [|lia]. destruct (Nat.eqb_spec i (n - 1)) as [->|Hin].
          - destruct (Z.leb_spec (tailv d) t); [reflexivity|lia].
          - assert (B := S8 i c' Hi ltac:(lia)). destruct (Z.leb_spec ((q + Z.of_nat i) * cs + pv_eoc (pv c')) t); [reflexivity|].
            exfalso. assert (Z.of_nat i + 1 <= Z.of_nat k) by lia. nia. }
      assert (Hsk : skipn n (j_chunks d) = []) by apply skipn_all. assert (Hfk : firstn n (j_chunks d) = j_chunks d) by apply firstn_all.
      rewrite Hsk, Hfk.
      destruct (Z.ltb_spec (j_end d) t); [exfalso; lia|].
      unfold update_data_start_offset. cbn [j_chunks].
      set (rt := round_up t cs).
      assert (Hrt : exists q', rt = q' * cs /\ t <= rt < t + cs).
      { unfold rt. rewrite Ht. destruct (Z.eq_dec o 0) as [->|Ho0].
        - exists (q + Z.of_nat k). rewrite Z.add_0_r, round_up_0 by lia. lia.
        - exists (q + Z.of_nat k + 1). rewrite round_up_at by lia. lia. }
      destruct Hrt as (q' & Hq' & Hrt).
      eexists _, _, _, n. split; [reflexivity|]. cbn [j_start j_wsz j_resv j_end j_total j_chunks].
      assert (Hnop : g_pending g = []).
      { destruct (g_pending g) as [|r l] eqn:E; [reflexivity|]. exfalso.
        assert (Hr : In r (r :: l)) by now left. specialize (L4 r Hr). destruct (G7 r Hr) as [Hr2 _].
        specialize (G3 r Hr2). destruct (G2 r Hr2) as (_ & _ & _ & _ & Hp & _). lia. }
      assert (Hnor : forall r, In r (g_ranges g) -> ~ t <= fst r).
      { intros r Hr. specialize (G3 r Hr). destruct (G2 r Hr) as (_ & _ & _ & _ & Hp & _). lia. }
      ands; try (symmetry; assumption); try lia.
      * exists q', 0. cbn [w_d w_pv w_mem]. split; [|split; [|split]].
        -- constructor; cbn [j_start j_chunks j_total j_end length]; auto; try lia.
           ++ intro E; congruence.
           ++ intros _. split; [reflexivity|]. unfold tailv in *; cbn [j_start j_wsz j_resv] in *. lia.
           ++ intros i c' Hi. destruct i; discriminate.
           ++ intros c' Hi. discriminate.
           ++ constructor.
        -- constructor; cbn [j_chunks].
           ++ intros i c' Hi. destruct i; discriminate.
           ++ intros i c' Hi. destruct i; discriminate.
           ++ intros c' _. cbn [put_privs fold_left]. fold (put_privs (put_priv pv (c, Priv ld true (pv_created (pv c)) (pv_eoc (pv c)) (pv_next (pv c)))) (flat_map (release_writes cs now) (j_chunks d))).
              destruct (in_dec N.eq_dec c' (j_chunks d)) as [Hf|Hf].
              ** rewrite release_in by assumption. cbn. intros [? _]. discriminate.
              ** rewrite release_out by assumption. rewrite put_priv_ne; [now apply (ch_other _ _ _ CH)|].
                 intro. subst c'. apply Hf. eapply nth_error_In; eauto.
           ++ auto.
        -- constructor; cbn [j_start j_chunks j_resv]; auto.
           ++ intros r Hr. specialize (G3 r Hr). unfold tailv in *; cbn [j_start j_wsz j_resv] in *. lia.
           ++ intros r Hr. left. specialize (G3 r Hr). lia.
           ++ intros r i c' o' Hr Hi. destruct i; discriminate.
           ++ rewrite Hnop. intros r [].
        -- intros i c' o' Hi. destruct i; discriminate.
      * intros (r & Hr & Hf). exfalso. apply (Hnor r Hr). lia.
      * now left.
    + (* the last chunk stays *)
      rewrite (Hrel k).
      2:{ intros i c' Hi. assert (i < n)%nat by (apply nth_error_Some; congruence).
          destruct (Nat.eqb_spec i (n - 1)) as [->|Hin].
          - destruct (Nat.ltb_spec (n - 1) k); [lia|]. destruct (Z.leb_spec (tailv d) t); [lia|reflexivity].
          - destruct (Nat.ltb_spec i k); [|lia]. assert (B := S8 i c' Hi ltac:(lia)).
            destruct (Z.leb_spec ((q + Z.of_nat i) * cs + pv_eoc (pv c')) t); [reflexivity|].
            exfalso. assert (Z.of_nat i + 1 <= Z.of_nat k) by lia. nia. }
      destruct (Z.ltb_spec (j_end d) t); [exfalso; lia|].
      assert (Hlk : length (firstn k (j_chunks d)) = k) by (rewrite firstn_length; fold n; lia).
      assert (Hls : length (skipn k (j_chunks d)) = (n - k)%nat) by (rewrite skipn_length; reflexivity).
      unfold update_data_start_offset. cbn [j_chunks j_total j_wsz j_resv]. rewrite Hlk.
      destruct (skipn k (j_chunks d)) as [|cc rest] eqn:Esk; [cbn in Hls; lia|]. rewrite <- Esk in *. rewrite Hls.
      assert (Hrd : round_down t cs = (q + Z.of_nat k) * cs) by (rewrite Ht; apply round_down_at; lia). rewrite Hrd.
      destruct (Z.eqb_spec ((q + Z.of_nat k) * cs + Z.of_nat (n - k) * cs - (q + Z.of_nat k) * cs) (j_total d - cs * Z.of_nat k)) as [_|HE];
        [|exfalso; apply HE; rewrite S3; rewrite Nat2Z.inj_sub by lia; lia].
      eexists _, _, _, k. split; [reflexivity|]. cbn [j_start j_wsz j_resv j_end j_total j_chunks].
      replace (j_total d - cs * Z.of_nat k) with (Z.of_nat (n - k) * cs) by (rewrite S3, Nat2Z.inj_sub by lia; lia).
      replace ((q + Z.of_nat k) * cs + Z.of_nat (n - k) * cs) with (j_end d) by (rewrite S4, Nat2Z.inj_sub by lia; lia).
      ands; auto; try lia.
      * assert (CI := cut_inv cs ld d pv m g q s0 k c o (j_wsz d - (t - j_start d)) now Hcs SH CH GR CO Hk Ho Heo).
        cbn zeta in CI. rewrite <- Ht in CI. fold n in CI. cbn [put_privs fold_left]. apply CI; auto; unfold tailv in *; lia.
      * apply Hwh; auto; lia.
  - (* t in a chunk before the last *)
    destruct (nth_error_lt (j_chunks d) (S k) ltac:(fold n; lia)) as (c1 & Hc1).
    assert (Hec := S8 k c Hk ltac:(lia)).
    destruct (Z.leb_spec (pv_eoc (pv c)) o) as [Hfl|Hfl].
    + (* at the end of the data of its chunk *)
      assert (Hoe : o = pv_eoc (pv c)) by lia. 
      assert (Hnx : next = Some c1) by (unfold next; destruct (Z.leb_spec (pv_eoc (pv c)) o); [exact Hc1|lia]).
      unfold pvh, head in *. rewrite Hnx in *.
      rewrite (Hrel (S k)).
      2:{ intros i c' Hi. assert (i < n)%nat by (apply nth_error_Some; congruence).
          destruct (Nat.eqb_spec i (n - 1)) as [->|Hin].
          - destruct (Nat.ltb_spec (n - 1) (S k)); [lia|]. destruct (Z.leb_spec (tailv d) t); [|reflexivity].
            exfalso. assert (Z.of_nat k + 2 <= Z.of_nat n) by lia. nia.
          - assert (B := S8 i c' Hi ltac:(lia)). destruct (Nat.ltb_spec i (S k)).
            + destruct (Z.leb_spec ((q + Z.of_nat i) * cs + pv_eoc (pv c')) t); [reflexivity|]. exfalso.
              destruct (Nat.eq_dec i k) as [->|]; [assert (c' = c) by congruence; subst; lia|].
              assert (Z.of_nat i + 1 <= Z.of_nat k) by lia. nia.
            + destruct (Z.leb_spec ((q + Z.of_nat i) * cs + pv_eoc (pv c')) t); [|reflexivity]. exfalso.
              assert (Z.of_nat k + 1 <= Z.of_nat i) by lia. nia. }
      assert (Hru : round_up t cs = (q + Z.of_nat (S k)) * cs) by (rewrite Ht, round_up_at by lia; lia).
      rewrite Hru.
      destruct (Z.ltb_spec (j_end d) ((q + Z.of_nat (S k)) * cs)); [exfalso; rewrite S4 in *; nia|].
      assert (Hlk : length (firstn (S k) (j_chunks d)) = S k) by (rewrite firstn_length; fold n; lia).
      assert (Hls : length (skipn (S k) (j_chunks d)) = (n - S k)%nat) by (rewrite skipn_length; reflexivity).
      unfold update_data_start_offset. cbn [j_chunks j_total j_wsz j_resv]. rewrite Hlk.
      destruct (skipn (S k) (j_chunks d)) as [|cc rest] eqn:Esk; [cbn in Hls; lia|]. rewrite <- Esk in *. rewrite Hls.
      assert (Hrd : round_down ((q + Z.of_nat (S k)) * cs) cs = (q + Z.of_nat (S k)) * cs).
      { replace ((q + Z.of_nat (S k)) * cs) with ((q + Z.of_nat (S k)) * cs + 0) at 1 by lia. apply round_down_at. lia. }
      rewrite Hrd.
      destruct (Z.eqb_spec ((q + Z.of_nat (S k)) * cs + Z.of_nat (n - S k) * cs - (q + Z.of_nat (S k)) * cs) (j_total d - cs * Z.of_nat (S k))) as [_|HE];
        [|exfalso; apply HE; rewrite S3; rewrite Nat2Z.inj_sub by lia; lia].
      eexists _, _, _, (S k). split; [reflexivity|]. cbn [j_start j_wsz j_resv j_end j_total j_chunks].
      replace (j_total d - cs * Z.of_nat (S k)) with (Z.of_nat (n - S k) * cs) by (rewrite S3, Nat2Z.inj_sub by lia; lia).
      replace ((q + Z.of_nat (S k)) * cs + Z.of_nat (n - S k) * cs) with (j_end d) by (rewrite S4, Nat2Z.inj_sub by lia; lia).
      assert (Hst1 : t <= (q + Z.of_nat (S k)) * cs) by lia.
      assert (Hafter : forall r, In r (g_ranges g) -> t <= fst r -> (q + Z.of_nat (S k)) * cs <= fst r).
      { intros r Hr Htr. destruct (G2 r Hr) as (mm & oo & Hf & Hoo & Hsz & Hlt).
        assert (q + Z.of_nat k <= mm) by nia. destruct (Z.eq_dec mm (q + Z.of_nat k)) as [->|Hmm].
        - assert (B := G5 r k c oo Hr Hk Hf ltac:(lia)). exfalso. lia.
        - rewrite Hf. assert (q + Z.of_nat (S k) <= mm) by lia. nia. }
      assert (He1 : 0 < pv_eoc (pv c1)).
      { destruct (Nat.eq_dec (S (S k)) n) as [E|E]; [rewrite (S7 _ _ Hc1 E); lia|apply (S8 _ _ Hc1 E)]. }
      ands; auto; try lia.
      * assert (CI := cut_inv cs ld d pv m g q s0 (S k) c1 0 (j_wsz d - (t - j_start d + (cs - pv_eoc (pv c)))) now Hcs SH CH GR CO Hc1 ltac:(lia) ltac:(lia)).
        cbn zeta in CI. rewrite !Z.add_0_r in CI. fold n in CI. cbn [put_privs fold_left]. apply CI; auto.
        -- split; [lia|]. rewrite Htl. assert (Z.of_nat k + 2 <= Z.of_nat n) by lia. nia.
        -- intros r Hr. destruct (Hlive r Hr) as [B|B]; [left; lia|right; auto].
        -- intros r Hr. apply Hafter; [apply (G7 r Hr)|auto].
        -- unfold tailv in *. lia.
      * apply Hwh; auto; lia.
      * intros (r & Hr & Hf). exfalso. specialize (Hafter r Hr ltac:(lia)). lia.
    + (* inside the data of its chunk *)
      assert (Hnx : next = None) by (unfold next; destruct (Z.leb_spec (pv_eoc (pv c)) o); [lia|reflexivity]).
      unfold pvh, head in *. rewrite Hnx in *.
      rewrite (Hrel k).
      2:{ intros i c' Hi. assert (i < n)%nat by (apply nth_error_Some; congruence).
          destruct (Nat.eqb_spec i (n - 1)) as [->|Hin].
          - destruct (Nat.ltb_spec (n - 1) k); [lia|]. destruct (Z.leb_spec (tailv d) t); [|reflexivity].
            exfalso. assert (Z.of_nat k + 2 <= Z.of_nat n) by lia. nia.
          - assert (B := S8 i c' Hi ltac:(lia)). destruct (Nat.ltb_spec i k).
            + destruct (Z.leb_spec ((q + Z.of_nat i) * cs + pv_eoc (pv c')) t); [reflexivity|]. exfalso.
              assert (Z.of_nat i + 1 <= Z.of_nat k) by lia. nia.
            + destruct (Z.leb_spec ((q + Z.of_nat i) * cs + pv_eoc (pv c')) t); [|reflexivity]. exfalso.
              destruct (Nat.eq_dec i k) as [->|]; [assert (c' = c) by congruence; subst; lia|].
              assert (Z.of_nat k + 1 <= Z.of_nat i) by lia. nia. }
      destruct (Z.ltb_spec (j_end d) t); [exfalso; lia|].
      assert (Hlk : length (firstn k (j_chunks d)) = k) by (rewrite firstn_length; fold n; lia).
      assert (Hls : length (skipn k (j_chunks d)) = (n - k)%nat) by (rewrite skipn_length; reflexivity).
      unfold update_data_start_offset. cbn [j_chunks j_total j_wsz j_resv]. rewrite Hlk.
      destruct (skipn k (j_chunks d)) as [|cc rest] eqn:Esk; [cbn in Hls; lia|]. rewrite <- Esk in *. rewrite Hls.
      assert (Hrd : round_down t cs = (q + Z.of_nat k) * cs) by (rewrite Ht; apply round_down_at; lia). rewrite Hrd.
      destruct (Z.eqb_spec ((q + Z.of_nat k) * cs + Z.of_nat (n - k) * cs - (q + Z.of_nat k) * cs) (j_total d - cs * Z.of_nat k)) as [_|HE];
        [|exfalso; apply HE; rewrite S3; rewrite Nat2Z.inj_sub by lia; lia].
      eexists _, _, _, k. split; [reflexivity|]. cbn [j_start j_wsz j_resv j_end j_total j_chunks].
      replace (j_total d - cs * Z.of_nat k) with (Z.of_nat (n - k) * cs) by (rewrite S3, Nat2Z.inj_sub by lia; lia).
      replace ((q + Z.of_nat k) * cs + Z.of_nat (n - k) * cs) with (j_end d) by (rewrite S4, Nat2Z.inj_sub by lia; lia).
      ands; auto; try lia.
      * assert (CI := cut_inv cs ld d pv m g q s0 k c o (j_wsz d - (t - j_start d)) now Hcs SH CH GR CO Hk Ho Heo).
        cbn zeta in CI. rewrite <- Ht in CI. fold n in CI. cbn [put_privs fold_left]. apply CI; auto; unfold tailv in *; lia.
      * apply Hwh; auto; lia.
Qed.

(** ** Restart *)
Lemma pick_none : forall ld (pv : privs) l (b : N * N), (forall c, In c l -> ~ (pv_head (pv c) = true /\ pv_logdev (pv c) = ld)) ->
  fold_left (fun best c => if pv_head (pv c) && N.eqb (pv_logdev (pv c)) ld && N.ltb (snd best) (pv_created (pv c))
             then (c, pv_created (pv c)) else best) l b = b.
Proof.
  induction l as [|c l IH]; intros b H; [reflexivity|]. cbn [fold_left].
  destruct (pv_head (pv c)) eqn:E1; [destruct (N.eqb_spec (pv_logdev (pv c)) ld) as [E2|E2]|]; cbn [andb].
  - exfalso. apply (H c); [now left|auto].
  - apply IH. intros c' Hc'. apply H. now right.
  - apply IH. intros c' Hc'. apply H. now right.
Qed.

Lemma pick_one : forall ld pv l h, NoDup l -> In h l -> pv_head (pv h) = true -> pv_logdev (pv h) = ld -> (0 < pv_created (pv h))%N ->
  (forall c, In c l -> c <> h -> ~ (pv_head (pv c) = true /\ pv_logdev (pv c) = ld)) ->
  fst (pick_head ld pv l) = h.
Proof.
  intros ld pv l h Hnd Hin Hh Hl Hc Ho. apply in_split in Hin. destruct Hin as (a & b & ->).
  apply NoDup_remove_2 in Hnd. unfold pick_head. rewrite fold_left_app.
  rewrite (pick_none ld pv a); [|intros c Hca; apply Ho; [apply in_or_app; now left|intro; subst; apply Hnd, in_or_app; now left]].
  cbn [fold_left snd]. rewrite Hh, Hl, N.eqb_refl. destruct (N.ltb_spec 0 (pv_created (pv h))); [|lia]. cbn [andb].
  rewrite pick_none; [reflexivity|].
  intros c Hca. apply Ho; [apply in_or_app; right; now right|intro; subst; apply Hnd, in_or_app; now right].
Qed.

Lemma follow_chain : forall pv all l fuel, (length l <= fuel)%nat -> (forall c, In c l -> In c all) -> ~ In 0%N l ->
  (forall k c, nth_error l k = Some c -> pv_next (pv c) = match nth_error l (S k) with Some c' => c' | None => 0%N end) ->
  follow fuel pv all (match l with [] => 0%N | c :: _ => c end) = Some l.
Proof.
  intros pv all; induction l as [|c l IH]; intros fuel Hf Hin H0 Hn.
  - destruct fuel; reflexivity.
  - destruct fuel as [|fuel]; [cbn in Hf; lia|]. cbn [follow].
    destruct (N.eqb_spec c 0) as [->|Hc]; [exfalso; apply H0; now left|].
    assert (Ex : existsb (N.eqb c) all = true) by (apply existsb_exists; exists c; split; [apply Hin; now left|apply N.eqb_refl]).
    rewrite Ex. assert (E := Hn 0%nat c eq_refl). cbn [nth_error] in E.
    assert (E2 : pv_next (pv c) = match l with [] => 0%N | c' :: _ => c' end) by (rewrite E; destruct l; reflexivity).
    rewrite E2, IH; [reflexivity|cbn in Hf; lia|intros; apply Hin; now right|intro; apply H0; now right|].
    intros k c' Hk. apply (Hn (S k) c' Hk).
Qed.

(** While a range is reserved it is in the last chunk, or a later one was handed out. *)
Definition lastp (cs : Z) (w : world) (g : ghost) : Prop :=
  forall r, In r (g_pending g) -> j_end (w_d w) - cs <= fst r \/ exists r', In r' (g_ranges g) /\ before r r'.

Lemma last_max : forall l r r', increasing (l ++ [r]) -> 0 < snd r -> (forall a, In a (l ++ [r]) -> 0 < snd a) ->
  In r' (l ++ [r]) -> ~ before r r'.
Proof.
  induction l as [|a l IH]; intros r r' H Hp Hall Hin B; cbn in *.
  - destruct Hin as [<-|[]]. unfold before in B. lia.
  - inversion H; subst. rewrite Forall_forall in H3. destruct Hin as [<-|Hin].
    + assert (Hb := H3 r ltac:(apply in_or_app; right; now left)). unfold before in *. assert (0 < snd a) by auto. lia.
    + revert B. apply IH; auto.
Qed.

Lemma fold_drop1 : forall r (l : list (Z * Z)), fold_left (fun l (r : Z * Z) => drop_range (fst r) l) [r] l = drop_range (fst r) l.
Proof. reflexivity. Qed.

Lemma restart_inv : forall cs ld w g all t, 0 < cs -> inv cs ld w g -> lastp cs w g -> legal cs ld w g (ORestart all t) ->
  exists w', step cs ld w (ORestart all t) = Some (w', None) /\ inv cs ld w' (gstep g (ORestart all t) None) /\
    lastp cs w' (gstep g (ORestart all t) None) /\
    w_pv w' = w_pv w /\ w_mem w' = w_mem w /\ j_chunks (w_d w') = j_chunks (w_d w) /\
    j_start (w_d w') = j_start (w_d w) /\ j_end (w_d w') = j_end (w_d w) /\ tailv (w_d w') = t.
Proof.
  intros cs ld [d pv m] g all t Hcs (q & s0 & SH & CH & GR & CO) LP (L1 & L2 & L3). cbn [w_d w_pv w_mem] in *.
  set (n := length (j_chunks d)).
  assert (Hpk : follow (length all) pv all (fst (pick_head ld pv all)) = Some (j_chunks d)).
  { assert (Hhd : fst (pick_head ld pv all) = match j_chunks d with [] => 0%N | c :: _ => c end).
    { destruct (j_chunks d) as [|h l] eqn:E.
      - unfold pick_head. rewrite pick_none; [reflexivity|]. intros c _. apply (ch_other _ _ _ CH). intros [].
      - destruct (ch_head _ _ _ CH 0%nat h eq_refl) as (A1 & A2 & A3).
        apply pick_one; auto.
        + apply L2. now left.
        + intros c Hc Hne. destruct (in_dec N.eq_dec c (h :: l)) as [Hi|Hi]; [|now apply (ch_other _ _ _ CH)].
          apply In_nth_error in Hi. destruct Hi as ([|k] & Hk); [cbn in Hk; congruence|].
          destruct (ch_head _ _ _ CH (S k) c Hk) as (B1 & _). rewrite B1. intros [? _]. discriminate. }
    rewrite Hhd. apply follow_chain; auto.
    - apply NoDup_incl_length; [apply (sh_nodup _ _ _ _ _ SH)|exact L2].
    - apply (ch_id _ _ _ CH).
    - apply (ch_next _ _ _ CH). }
  destruct SH as [S1 S2 S3 S4 S5 S6 S7 S8 S9 S10]. destruct GR as [G1 G2 G3 G4 G5 G6 G7 G8]. fold n in S3, S4, S5.
  cbn [step]. unfold restart. cbn [w_pv w_d w_mem]. rewrite Hpk. fold n.
  assert (Hup : update_data_start_offset cs (JD 0 0 0 0 (cs * Z.of_nat n) (j_chunks d)) (j_start d) =
                Some (JD (j_start d) 0 0 (j_end d) (j_total d) (j_chunks d))).
  { unfold update_data_start_offset. cbn [j_chunks j_wsz j_resv j_total].
    replace (cs * Z.of_nat n) with (j_total d) by lia.
    destruct (j_chunks d) as [|h l] eqn:E.
    - destruct (S6 eq_refl) as [Z0 _].
      assert (Er : round_up (j_start d) cs = j_start d) by (rewrite S1, Z0, Z.add_0_r; apply round_up_0; lia).
      assert (Ee : j_end d = j_start d) by (rewrite S4, S1; unfold n; cbn [length]; lia). rewrite Er, Ee. reflexivity.
    - fold n. assert (Er : round_down (j_start d) cs = q * cs) by (rewrite S1; apply round_down_at; lia).
      rewrite Er.
      destruct (Z.eqb_spec (q * cs + Z.of_nat n * cs - q * cs) (j_total d)); [|lia]. do 2 f_equal. lia. }
  rewrite Hup. unfold update_tail_offset. cbn [j_start j_resv j_end j_total j_chunks].
  change (j_start d + j_wsz d + j_resv d) with (tailv d) in L3.
  (* the tail found *)
  set (g' := gstep g (ORestart all t) None).
  assert (Hcase : j_start d <= t <= tailv d /\ (j_chunks d <> [] -> (q + Z.of_nat n - 1) * cs <= t) /\
                  (j_chunks d = [] -> t = tailv d) /\
                  (forall r, In r (g_ranges g') -> In r (g_ranges g) /\ ~ In r (g_pending g) /\ fst r + snd r <= t) /\
                  increasing (g_ranges g')).
  { destruct (g_pending g) as [|r [|r2 l2]] eqn:EP; [| |contradiction].
    - subst t. ands; try lia.
      + destruct (j_chunks d) eqn:E; [destruct (S6 eq_refl); lia|]. destruct (S5 ltac:(discriminate)). lia.
      + unfold g'. cbn [gstep g_ranges]. rewrite EP. cbn [fold_left]. intros r Hr. ands; auto.
      + unfold g'. cbn [gstep g_ranges]. rewrite EP. exact G1.
    - destruct L3 as (-> & l & El). destruct (G7 r ltac:(now left)) as [Hr Hrs]. assert (Hrt := G3 r Hr).
      destruct (G2 r Hr) as (mm & oo & Hf & Hoo & Hsz & Hlt).
      assert (Hpos : forall a, In a (g_ranges g) -> 0 < snd a) by (intros a Ha; destruct (G2 a Ha) as (_ & _ & _ & _ & ? & _); assumption).
      rewrite El in *. ands; try lia.
      + intros _. destruct (LP r ltac:(rewrite EP; now left)) as [B|(r' & Hr' & B)]; [cbn [w_d] in B; lia|].
        exfalso. rewrite El in Hr'. eapply last_max; eauto.
      + unfold g'. cbn [gstep g_ranges]. rewrite EP, fold_drop1. rewrite El. intros a Ha. apply drop_range_in in Ha. destruct Ha as [Ha Hne].
        ands; auto.
        * intros [<-|[]]. contradiction.
        * destruct (inc_before _ _ _ G1 Ha Hr) as [->|[B|B]]; [contradiction|exact B|].
          exfalso. eapply last_max; eauto.
      + unfold g'. cbn [gstep g_ranges]. rewrite EP, fold_drop1, El. apply inc_filter, G1. }
  destruct Hcase as (H1 & H2 & H3 & H4 & H5).
  destruct (Z.leb_spec (j_start d) t); [|lia].
  assert (Hgp : g_pending g' = []) by reflexivity.
  assert (Hgf : g_file g' = g_file g) by reflexivity.
  eexists; split; [reflexivity|]. cbn [w_d w_pv w_mem j_chunks j_start j_end].
  assert (Htv : tailv (JD (j_start d) (t - j_start d) 0 (j_end d) (j_total d) (j_chunks d)) = t)
    by (unfold tailv; cbn [j_start j_wsz j_resv]; lia).
  split; [|ands; auto; intros r Hr; rewrite Hgp in Hr; destruct Hr].
  exists q, s0. cbn [w_d w_pv w_mem]. split; [|split; [|split]].
  - constructor; cbn [j_start j_chunks j_total j_end]; try rewrite Htv; auto.
    + intro Hne. destruct (S5 Hne). specialize (H2 Hne). fold n. lia.
    + intro E. destruct (S6 E). specialize (H3 E). lia.
  - assumption.
  - constructor; cbn [j_start j_chunks j_resv]; try rewrite Htv; auto.
    + intros r Hr. apply G2, (H4 r Hr).
    + intros r Hr. apply (H4 r Hr).
    + intros r Hr. apply G4, (H4 r Hr).
    + intros r k c o Hr. apply G5, (H4 r Hr).
    + rewrite Hgp. constructor.
    + rewrite Hgp. intros r [].
  - intros k c o Hk Ho (r & Hr & _ & Hw). rewrite Hgf. apply CO; auto. destruct (H4 r Hr) as (A1 & A2 & _).
    exists r. auto.
Qed.

(** ** Histories *)
Definition good (cs : Z) (ld : N) (w : world) (g : ghost) : Prop := inv cs ld w g /\ lastp cs w g.

Lemma step_good : forall cs ld w g o, 0 < cs -> good cs ld w g -> legal cs ld w g o ->
  exists w' ans, step cs ld w o = Some (w', ans) /\ good cs ld w' (gstep g o ans).
Proof.
  intros cs ld w g o Hcs [I LP] L. destruct o as [sz nid|x data|t now|c p off data|all t].
  - destruct (alloc_inv cs ld w g sz nid Hcs I L) as (w' & x & E & I' & A1 & A2 & A3 & A4).
    exists w', (Some x). split; [exact E|]. split; [exact I'|].
    intros r Hr. cbn [gstep g_pending g_ranges] in *. apply in_app_or in Hr. destruct Hr as [Hr|[<-|[]]].
    + right. exists (x, sz). split; [apply in_or_app; right; now left|]. apply A1.
      destruct I as (q & s0 & _ & _ & GR & _). apply (gr_pend _ _ _ _ _ GR r Hr).
    + left. cbn [fst]. destruct I' as (q & s0 & SH & _). destruct A2 as (mm & oo & Hf & Hoo & Hsz & Hlt). cbn in Hf, Hsz, Hlt.
      destruct (j_chunks (w_d w')) as [|h l] eqn:E2.
      * destruct (sh_empty _ _ _ _ _ SH E2). lia.
      * destruct (sh_tail _ _ _ _ _ SH ltac:(rewrite E2; discriminate)) as [[T1 T2] T3].
        assert (He := sh_end _ _ _ _ _ SH). set (n := Z.of_nat (length (j_chunks (w_d w')))) in *.
        rewrite He in *. assert (q + n - 1 <= mm) by nia. nia.
  - destruct (write_inv cs ld w g x data Hcs I L) as (w' & E & I' & A1).
    exists w', None. split; [exact E|]. split; [exact I'|].
    assert (He : j_end (w_d w') = j_end (w_d w)).
    { cbn [step] in E. unfold pwrite in E. destruct (Z.ltb _ _); [discriminate|].
      destruct (offset_to_chunk cs (w_d w) x) as [[[c i] o]|]; [|discriminate].
      destruct (Z.ltb _ _); [discriminate|]. injection E as <-. reflexivity. }
    intros r Hr. rewrite He. cbn [gstep g_pending g_ranges] in *. apply drop_range_in in Hr. apply LP, Hr.
  - destruct (trunc_inv cs ld w g t now Hcs I L) as (d' & ws & gone & j & E & I' & A1 & A2 & A3 & A4 & A5 & A6 & A7).
    eexists _, _. split; [cbn [step]; rewrite E; reflexivity|]. cbn [gstep]. split; [exact I'|].
    intros r Hr. cbn [w_d]. destruct A7 as [A7|A7]; [rewrite A7 in Hr; destruct Hr|]. rewrite A7. now apply LP.
  - destruct (other_inv cs ld w g c p off data Hcs I L) as (w' & E & I' & A1). exists w', None. split; [exact E|].
    split; [exact I'|]. cbn [step] in E. injection E as <-. exact LP.
  - destruct (restart_inv cs ld w g all t Hcs I LP L) as (w' & E & I' & LP' & _). exists w', None. split; [exact E|]. split; assumption.
Qed.

Lemma run_good : forall cs ld ops w g, 0 < cs -> good cs ld w g -> legal_run cs ld w g ops ->
  exists w' g', run cs ld w g ops = Some (w', g') /\ good cs ld w' g'.
Proof.
  intros cs ld; induction ops as [|o ops IH]; intros w g Hcs G L.
  - exists w, g. split; [reflexivity|assumption].
  - cbn [legal_run run] in *. destruct L as [L1 L2]. destruct (step_good cs ld w g o Hcs G L1) as (w' & ans & E & G').
    rewrite E in *. now apply IH.
Qed.

Lemma start_good : forall cs ld pv m, 0 < cs -> no_head ld pv -> good cs ld (start_world pv m) start_ghost.
Proof.
  intros cs ld pv m Hcs H. split; [|intros r []].
  exists 0, 0. cbn [start_world w_d w_pv w_mem fresh]. split; [|split; [|split]].
  - constructor; cbn [j_start j_chunks j_total j_end length fresh].
    + lia.
    + lia.
    + lia.
    + lia.
    + congruence.
    + intros _. split; reflexivity.
    + intros [|k]; discriminate.
    + intros [|k]; discriminate.
    + discriminate.
    + constructor.
  - constructor; cbn [j_chunks fresh].
    + intros [|k]; discriminate.
    + intros [|k]; discriminate.
    + intros c _. apply H.
    + intros [].
  - constructor; cbn [start_ghost g_ranges g_pending j_resv fresh]; try contradiction; try constructor.
  - intros [|k]; discriminate.
Qed.
