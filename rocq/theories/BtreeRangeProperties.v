(** What is proved of the operations on ranges of keys: C38, C39, C73, C74. *)
From Coq Require Import ZArith NArith List Bool Lia.
From Coq Require Import ZifyBool ZifyNat ZifyN.
From Verif Require Import Base BtNodeModel BtNodeSpec BtNodeProofs BtreeModel BtreeInv BtreePut
  BtreeMerge BtreeRemove BtreeSpec BtreeProperties BtreeQueryModel BtreeQueryProofs
  BtreeRangeModel BtreeRangeProofs BtreeRangePut.
Import ListNotations.

(** ** Histories with range operations *)

Inductive rop :=
| One (o : op)
| RangeRemove (r : krange) (f : rfilter)
| RangeUpdate (r : krange) (v : N) (f : pfilter).

Inductive rout := OutOne (x : out) | OutRange (st : status).

(** What a range operation may do to a map. *)
Definition remove_spec (m : fmap) (r : krange) (f : rfilter) (m' : fmap) (st : status) : Prop :=
  (forall k, m' k = match m k with
                    | Some v => if in_range r k && accepts f k v then None else Some v
                    | None => None
                    end) /\
  ((st = StSuccess /\ exists k v, m k = Some v /\ in_range r k = true /\ accepts f k v = true) \/
   (st = StNotFound /\ forall k v, m k = Some v -> in_range r k = true -> accepts f k v = false)).

Definition replaced (f : pfilter) (k : Z) (v0 v : N) : N :=
  match f with
  | None => v
  | Some g => match g k v0 v with DReplace => v | _ => v0 end
  end.

Definition update_spec (m : fmap) (r : krange) (v : N) (f : pfilter) (m' : fmap) (st : status) : Prop :=
  (forall k, in_range r k = false -> m' k = m k) /\
  (forall k, m' k = None <-> m k = None) /\
  ((st = StSuccess /\
    forall k v0, in_range r k = true -> m k = Some v0 -> m' k = Some (replaced f k v0 v)) \/
   st = StNotFound).

Definition rspec (m : fmap) (o : rop) (m' : fmap) (x : rout) : Prop :=
  match o, x with
  | One o, OutOne x => x = snd (sstep m o) /\ (forall k, m' k = fst (sstep m o) k)
  | RangeRemove r f, OutRange st => remove_spec m r f m' st
  | RangeUpdate r v f, OutRange st => update_spec m r v f m' st
  | _, _ => False
  end.

Fixpoint rspecs (m : fmap) (ops : list rop) (m' : fmap) (xs : list rout) : Prop :=
  match ops, xs with
  | [], [] => forall k, m' k = m k
  | o :: r, x :: xs' => exists m1, rspec m o m1 x /\ rspecs m1 r m' xs'
  | _, _ => False
  end.

(** The model.  [need]: what a range put asks a leaf for, see
    BtreeRangeModel.v. *)
Definition rstep (c : cfg) (need : N -> Z -> N) (fuel : nat) (s : state) (o : rop)
  : res (state * rout) :=
  match o with
  | One o =>
      match step c fuel s o with
      | Stop e => Stop e
      | Ok (s', x) => Ok (s', OutOne x)
      end
  | RangeRemove r f =>
      match rremove c fuel (fst s) (snd s) r f with
      | Stop e => Stop e
      | Ok (t, nx, st) => Ok ((nx, t), OutRange st)
      end
  | RangeUpdate r v f =>
      match rput c fuel (fst s) (snd s) (need v) r PUpdate v f with
      | Stop e => Stop e
      | Ok (t, nx, st) => Ok ((nx, t), OutRange st)
      end
  end.

Fixpoint rrun (c : cfg) (need : N -> Z -> N) (fuel : nat) (s : state) (ops : list rop)
  : res (state * list rout) :=
  match ops with
  | [] => Ok (s, [])
  | o :: r =>
      match rstep c need fuel s o with
      | Stop e => Stop e
      | Ok (s', x) =>
          match rrun c need fuel s' r with
          | Stop e => Stop e
          | Ok (s'', xs) => Ok (s'', x :: xs)
          end
      end
  end.

(** A range is start < end, or one key included. *)
Definition rop_ok (o : rop) : Prop :=
  match o with
  | One _ => True
  | RangeRemove r _ => valid r
  | RangeUpdate r v f => valid r /\ no_remove f v
  end.

(** ** From lists to maps *)

Lemma filter_assoc : forall (g : Z * N -> bool) l k, sorted l ->
  assoc (filter g l) k = match assoc l k with
                         | Some v => if g (k, v) then Some v else None
                         | None => None
                         end.
Proof.
  intros g l k HS. destruct (assoc (filter g l) k) as [v|] eqn:E.
  - apply assoc_In in E; [|now apply sorted_filter]. apply filter_In in E. destruct E as [E1 E2].
    apply assoc_In in E1; [|assumption]. now rewrite E1, E2.
  - destruct (assoc l k) as [v|] eqn:E1; [|reflexivity]. destruct (g (k, v)) eqn:E2; [|reflexivity].
    exfalso. apply assoc_In in E1; [|assumption].
    assert (HI : In (k, v) (filter g l)) by (apply filter_In; auto).
    apply assoc_In in HI; [congruence|now apply sorted_filter].
Qed.

Lemma root_fits : forall h t r, wf h NegInf PosInf t -> valid r ->
  fits r h PosInf (WS r false) /\ full r (WS r false) = r.
Proof.
  intros h t r HW HV. assert (HF : full r (WS r false) = r) by (destruct r; reflexivity).
  split; [|assumption]. left. split; [|intros _; left; exact I].
  split; [reflexivity|]. split; [reflexivity|]. split; [reflexivity|]. now rewrite HF.
Qed.

Lemma rremove_tree_ok : forall c r f, cfg_ok c -> valid r -> forall fuel nx t t' nx' st,
  tree_ok nx t -> rremove_from c r fuel nx t f = Ok (t', nx', st) ->
  tree_ok nx' t' /\ content t' = filter (keep r f) (content t) /\
  st = rstatus (existsb (hit r f) (content t)).
Proof.
  intros c r f Hok HV. induction fuel as [|fuel IH]; intros nx t t' nx' st HT HR; [discriminate|].
  assert (Hgo : match do_rremove c r fuel nx t (WS r false) f None false with
                | Stop s => Stop s
                | Ok (t', nx', _, st) => Ok (t', nx', st)
                end = Ok (t', nx', st) ->
    tree_ok nx' t' /\ content t' = filter (keep r f) (content t) /\
    st = rstatus (existsb (hit r f) (content t))).
  { intros HR'. pose proof HT as [[h HW] _].
    destruct (do_rremove c r fuel nx t (WS r false) f None false) as [[[[t1 nx1] w1] st1]|] eqn:E;
      [|discriminate].
    injection HR' as <- <- <-. destruct (root_fits h t r HW HV) as [HF HFu].
    destruct (proj1 (do_rremove_ok r c Hok fuel) h NegInf PosInf t nx (WS r false) f false t1 nx1 w1 st1
      HW HF (or_introl I) I (fun _ => eq_refl) E) as [H1 [H2 [H3 [H4 _]]]].
    rewrite HFu in H3, H4. split; [eapply tree_ok_lgood; eauto|]. split; assumption. }
  cbn [rremove_from] in HR. destruct t as [id next [|p es]|id next [|p es] [e|]].
  - injection HR as <- <- <-. split; [assumption|]. split; reflexivity.
  - exact (Hgo HR).
  - destruct (tree_ok_edge _ _ _ _ HT) as [HT' HC'].
    destruct (c_merge c).
    + rewrite <- HC'. exact (IH _ _ _ _ _ HT' HR).
    + exact (IH _ _ _ _ _ HT HR).
  - discriminate.
  - exact (Hgo HR).
  - exact (Hgo HR).
Qed.

Lemma rput_tree_ok : forall c inp v f need, no_remove f v -> forall fuel nx t w t' nx' st,
  tree_ok nx t -> open_st inp w ->
  rput_from c inp fuel nx t need w PUpdate v f = Ok (t', nx', st) ->
  tree_ok nx' t' /\ Forall2 (only (full inp w)) (content t) (content t') /\
  ((st = StSuccess /\ content t' = map (updr f v (full inp w)) (content t)) \/ st = StNotFound).
Proof.
  intros c inp v f need HNR. induction fuel as [|fuel IH]; intros nx t w t' nx' st HT HO HR;
    [discriminate|].
  cbn [rput_from] in HR. pose proof HT as [[h HW] _].
  destruct (rsplit_needed c need w t).
  - destruct (split_root c nx t) as [[t1 nx1]|] eqn:E; [|discriminate].
    destruct (split_root_ok _ _ _ _ _ _ HW E) as [H1 [H2 H3]].
    assert (HT1 : tree_ok nx1 t1) by (eapply tree_ok_lgood; eauto).
    rewrite <- H2. exact (IH _ _ _ _ _ _ HT1 HO HR).
  - destruct (do_rput c inp fuel nx t need w PUpdate v f None) as [[[[t1 nx1] w1] st1]|] eqn:E;
      [|discriminate].
    assert (HF : fits inp h PosInf w) by (left; split; [assumption|intros _; left; exact I]).
    destruct (proj1 (do_rput_ok inp c f v HNR fuel) h NegInf PosInf t nx need w t1 nx1 w1 st1
      HW HF (or_introl I) I E) as [H1 [H2 [H3 H4]]].
    assert (HT1 : tree_ok nx1 t1) by (eapply tree_ok_lgood; eauto).
    destruct st1; try contradiction.
    + injection HR as <- <- <-. split; [assumption|]. split; [assumption|]. left.
      split; [reflexivity|]. apply H4.
    + injection HR as <- <- <-. split; [assumption|]. split; [assumption|]. now right.
    + destruct H4 as [H4 [C1 [C2 C3]]].
      destruct (IH _ _ _ _ _ _ HT1 C1 HR) as [I1 [I2 I3]].
      split; [assumption|]. split.
      * eapply only_trans; [exact H3|]. eapply only_weaken; [exact C2|exact I2].
      * destruct I3 as [[I3 I4]|I3]; [left|now right]. split; [assumption|]. now rewrite I4, H4.
Qed.

Lemma only_assoc : forall r l l', Forall2 (only r) l l' ->
  (forall k, in_range r k = false -> assoc l' k = assoc l k) /\
  (forall k, assoc l' k = None <-> assoc l k = None).
Proof.
  intros r l l' H. induction H as [|[k v] [k' v'] l l' [H1 H2] H [I1 I2]]; cbn in *; [split; tauto|].
  subst k'. split; intros k1; destruct (Z.eqb_spec k k1) as [->|]; auto.
  - intros HF. specialize (H2 HF). congruence.
  - split; discriminate.
Qed.

Lemma updr_assoc : forall f v r l k, assoc (map (updr f v r) l) k =
  match assoc l k with
  | Some v0 => Some (if in_range r k then replaced f k v0 v else v0)
  | None => None
  end.
Proof.
  intros f v r l k. induction l as [|[k1 v1] l IH]; cbn; [reflexivity|].
  unfold updr at 1. unfold newv. cbn [fst snd].
  assert (HE : (if in_range r k1
     then (k1, match f with
               | Some g => match g k1 v1 v with DReplace => v | _ => v1 end
               | None => v end)
     else (k1, v1)) = (k1, if in_range r k1 then replaced f k1 v1 v else v1)).
  { destruct (in_range r k1); reflexivity. }
  rewrite HE. destruct (Z.eqb_spec k1 k) as [->|]; [reflexivity|assumption].
Qed.

Lemma rstep_ok : forall c need fuel s o s' x m, cfg_ok c -> rop_ok o ->
  tree_ok (fst s) (snd s) -> holds (snd s) m -> rstep c need fuel s o = Ok (s', x) ->
  tree_ok (fst s') (snd s') /\ exists m', holds (snd s') m' /\ rspec m o m' x.
Proof.
  intros c need fuel [nx t] o s' x m Hok Ho HT HM HR. cbn [fst snd] in *.
  pose proof (tree_ok_sorted _ _ HT) as HS. destruct o as [o|r f|r v f]; cbn [rstep fst snd] in HR.
  - destruct (step c fuel (nx, t) o) as [[s1 x1]|] eqn:E; [|discriminate]. injection HR as <- <-.
    destruct (step_ok c fuel (nx, t) o s1 x1 m Hok HT HM E) as [H1 [H2 H3]].
    split; [assumption|]. exists (fst (sstep m o)). split; [assumption|]. cbn. auto.
  - destruct (rremove c fuel nx t r f) as [[[t1 nx1] st]|] eqn:E; [|discriminate].
    injection HR as <- <-. cbn [fst snd].
    destruct (rremove_tree_ok c r f Hok Ho fuel nx t t1 nx1 st HT E) as [H1 [H2 H3]].
    split; [assumption|]. exists (assoc (content t1)). split; [intros k; reflexivity|].
    cbn. split.
    + intros k. rewrite H2, filter_assoc by assumption. rewrite HM. destruct (m k) as [v|]; [|reflexivity].
      unfold keep, hit. cbn [fst snd]. now destruct (in_range r k && accepts f k v).
    + rewrite H3. destruct (existsb (hit r f) (content t)) eqn:EX; [left|right].
      * split; [reflexivity|]. apply existsb_exists in EX. destruct EX as [[k v] [HI HH]].
        unfold hit in HH. cbn [fst snd] in HH. apply andb_true_iff in HH.
        exists k, v. rewrite <- HM. split; [now apply assoc_In|tauto].
      * split; [reflexivity|]. intros k v Hk Hr. rewrite <- HM in Hk. apply assoc_In in Hk; [|assumption].
        destruct (accepts f k v) eqn:EA; [|reflexivity]. exfalso.
        assert (HX : existsb (hit r f) (content t) = true).
        { apply existsb_exists. exists (k, v). split; [assumption|]. unfold hit. cbn. now rewrite Hr, EA. }
        congruence.
  - destruct Ho as [HV HNR].
    destruct (rput c fuel nx t (need v) r PUpdate v f) as [[[t1 nx1] st]|] eqn:E; [|discriminate].
    injection HR as <- <-. cbn [fst snd]. unfold rput in E.
    assert (HO : open_st r (WS r false)).
    { split; [reflexivity|]. split; [reflexivity|]. split; [reflexivity|]. destruct r. exact HV. }
    assert (HF : full r (WS r false) = r) by (destruct r; reflexivity).
    destruct (rput_tree_ok c r v f (need v) HNR fuel nx t _ t1 nx1 st HT HO E) as [H1 [H2 H3]].
    rewrite HF in H2, H3. split; [assumption|]. exists (assoc (content t1)).
    split; [intros k; reflexivity|]. destruct (only_assoc _ _ _ H2) as [O1 O2]. cbn. split; [|split].
    + intros k Hk. rewrite O1 by assumption. apply HM.
    + intros k. rewrite O2, HM. tauto.
    + destruct H3 as [[H3 H4]|H3]; [left|now right]. split; [assumption|].
      intros k v0 Hk Hm. rewrite H4, updr_assoc, HM, Hm, Hk. reflexivity.
Qed.

Lemma rspecs_ext : forall ops xs m m1 m', (forall k, m k = m1 k) ->
  rspecs m ops m' xs -> rspecs m1 ops m' xs.
Proof.
  intros ops. induction ops as [|o ops IH]; intros [|x xs] m m1 m' HE HS; cbn in *; try contradiction.
  - intros k. now rewrite HS.
  - destruct HS as [m2 [H1 H2]]. exists m2. split; [|assumption].
    destruct o as [o|r f|r v f], x as [x|st]; cbn in *; try contradiction.
    + destruct H1 as [-> H1]. destruct o as [kd k v f|k|k]; cbn in *; rewrite <- ?HE.
      * destruct (put_spec kd v f k (m k)) as [st new]. cbn in *. split; [reflexivity|].
        intros k1. rewrite H1. unfold fset. now destruct (k1 =? k)%Z.
      * split; [reflexivity|]. intros k1. now rewrite H1.
      * split; [reflexivity|]. intros k1. rewrite H1. unfold fset. now destruct (k1 =? k)%Z.
    + destruct H1 as [H1 H3]. split; [intros k; rewrite H1, <- HE; reflexivity|].
      destruct H3 as [[H3 [k [v [H4 H5]]]]|[H3 H4]]; [left|right]; (split; [assumption|]).
      * exists k, v. rewrite <- HE. auto.
      * intros k v Hk. rewrite <- HE in Hk. eauto.
    + destruct H1 as [H1 [H3 H4]]. split; [|split].
      * intros k Hk. rewrite <- HE. auto.
      * intros k. rewrite <- HE. apply H3.
      * destruct H4 as [[H4 H5]|H4]; [left|now right]. split; [assumption|].
        intros k v0 Hk Hm. rewrite <- HE in Hm. auto.
Qed.

Lemma rrun_ok : forall c need fuel ops s s' xs m, cfg_ok c -> Forall rop_ok ops ->
  tree_ok (fst s) (snd s) -> holds (snd s) m -> rrun c need fuel s ops = Ok (s', xs) ->
  tree_ok (fst s') (snd s') /\ exists m', holds (snd s') m' /\ rspecs m ops m' xs.
Proof.
  intros c need fuel. induction ops as [|o ops IH]; intros s s' xs m Hok Hops HT HM HR; cbn [rrun] in HR.
  - injection HR as <- <-. split; [assumption|]. exists m. split; [assumption|]. cbn. auto.
  - destruct (rstep c need fuel s o) as [[s1 x]|] eqn:ES; [|discriminate].
    destruct (rrun c need fuel s1 ops) as [[s2 xs']|] eqn:ER; [|discriminate].
    injection HR as <- <-. inversion Hops as [|? ? Ho Hops']; subst.
    destruct (rstep_ok _ _ _ _ _ _ _ _ Hok Ho HT HM ES) as [H1 [m1 [H2 H3]]].
    destruct (IH _ _ _ _ Hok Hops' H1 H2 ER) as [H4 [m2 [H5 H6]]].
    split; [assumption|]. exists m2. split; [assumption|]. cbn. eauto.
Qed.

(** ** C73: range removal *)

(** Any history of puts, gets, removals, range removals and range updates; what
    the tree holds afterwards is what the maps of the specification hold.  A
    range removal takes away exactly the accepted keys of its range and says
    whether there were any. *)
Theorem c73_range_remove : forall c need fuel ops nx t xs, cfg_ok c -> Forall rop_ok ops ->
  rrun c need fuel new_tree ops = Ok ((nx, t), xs) ->
  exists m, rspecs (fun _ => None) ops m xs /\ forall k, get t k = Ok (m k).
Proof.
  intros c need fuel ops nx t xs Hok Ho HR.
  destruct (rrun_ok _ _ _ _ new_tree _ _ (fun _ => None) Hok Ho new_tree_ok (fun _ => eq_refl) HR)
    as [H1 [m [H2 H3]]]. cbn [fst snd] in *.
  exists m. split; [assumption|]. intros k. rewrite (get_tree_ok _ _ _ H1). f_equal. apply H2.
Qed.
Print Assumptions c73_range_remove.

(** One range removal after any history. *)
Theorem c73_range_remove_last : forall c need fuel ops nx t xs r f nx' t' st,
  cfg_ok c -> Forall rop_ok ops -> valid r ->
  rrun c need fuel new_tree ops = Ok ((nx, t), xs) ->
  rremove c fuel nx t r f = Ok (t', nx', st) ->
  forall k, exists v, get t k = Ok v /\
    get t' k = Ok (match v with
                   | Some x => if in_range r k && accepts f k x then None else v
                   | None => None
                   end).
Proof.
  intros c need fuel ops nx t xs r f nx' t' st Hok Ho HV HR HE k.
  destruct (rrun_ok _ _ _ _ new_tree _ _ (fun _ => None) Hok Ho new_tree_ok (fun _ => eq_refl) HR)
    as [H1 _]. cbn [fst snd] in *.
  destruct (rremove_tree_ok c r f Hok HV fuel nx t t' nx' st H1 HE) as [H2 [H3 _]].
  exists (assoc (content t) k). split; [exact (get_tree_ok _ _ _ H1)|].
  rewrite (get_tree_ok _ _ _ H2), H3, filter_assoc by exact (tree_ok_sorted _ _ H1). f_equal.
  destruct (assoc (content t) k) as [v|]; [|reflexivity].
  unfold keep, hit. cbn [fst snd]. now destruct (in_range r k && accepts f k v).
Qed.
Print Assumptions c73_range_remove_last.

(** ** C74: range update *)

(** Whatever a range update answers, keys neither come nor go and nothing
    outside the range changes; when it answers success, every key of the range
    has the value its filter asks for. *)
Theorem c74_range_update : forall c need fuel ops nx t xs r v f nx' t' st,
  cfg_ok c -> Forall rop_ok ops -> valid r -> no_remove f v ->
  rrun c need fuel new_tree ops = Ok ((nx, t), xs) ->
  rput c fuel nx t (need v) r PUpdate v f = Ok (t', nx', st) ->
  (st = StSuccess \/ st = StNotFound) /\
  forall k, exists x x', get t k = Ok x /\ get t' k = Ok x' /\
    (x' = None <-> x = None) /\ (in_range r k = false -> x' = x) /\
    (st = StSuccess -> in_range r k = true ->
     forall v0, x = Some v0 -> x' = Some (replaced f k v0 v)).
Proof.
  intros c need fuel ops nx t xs r v f nx' t' st Hok Ho HV HNR HR HE.
  destruct (rrun_ok _ _ _ _ new_tree _ _ (fun _ => None) Hok Ho new_tree_ok (fun _ => eq_refl) HR)
    as [H1 _]. cbn [fst snd] in *. unfold rput in HE.
  assert (HO : open_st r (WS r false)).
  { split; [reflexivity|]. split; [reflexivity|]. split; [reflexivity|]. destruct r. exact HV. }
  assert (HF : full r (WS r false) = r) by (destruct r; reflexivity).
  destruct (rput_tree_ok c r v f (need v) HNR fuel nx t _ t' nx' st H1 HO HE) as [H2 [H3 H4]].
  rewrite HF in H3, H4. destruct (only_assoc _ _ _ H3) as [O1 O2].
  split; [destruct H4 as [[-> _]| ->]; auto|].
  intros k. exists (assoc (content t) k), (assoc (content t') k).
  split; [exact (get_tree_ok _ _ _ H1)|]. split; [exact (get_tree_ok _ _ _ H2)|].
  split; [apply O2|]. split; [apply O1|]. intros -> Hk v0 Hv.
  destruct H4 as [[_ H4]|H4]; [|discriminate]. rewrite H4, updr_assoc, Hv, Hk. reflexivity.
Qed.
Print Assumptions c74_range_update.

(** A case: twelve keys in a tree of height 2; an update and a removal over
    several leaves. *)
Definition rops40 : list rop :=
  map (fun i => One (OPut PInsert (Z.of_nat i * 10) (N.of_nat i) None)) (seq 1 12) ++
  [RangeUpdate (KRange 35 true 60 false MAny) 77 None;
   RangeRemove (KRange 20 false 95 true MAny) (Some (fun k v => (v =? 77)%N || (k =? 70)%Z));
   One (OGet 40); One (OGet 60); One (OGet 70); One (OGet 80);
   RangeRemove (KRange 41 true 59 true MAny) None].

Definition need40 (v : N) (k : Z) : N := c_need cfg40 PUpdate k v.

Example c73_example : Forall rop_ok rops40 /\ exists nx t xs nx1 t1 xs1,
  rrun cfg40 need40 200 new_tree rops40 = Ok ((nx, t), xs) /\
  rrun cfg40 need40 200 new_tree (firstn 12 rops40) = Ok ((nx1, t1), xs1) /\ level t1 = 2%nat /\
  skipn 12 xs = [OutRange StSuccess; OutRange StSuccess; OutOne (RGet None);
                 OutOne (RGet (Some 6)); OutOne (RGet None); OutOne (RGet (Some 8));
                 OutRange StNotFound]%N /\
  map fst (content t) = [10; 20; 30; 60; 80; 90; 100; 110; 120]%Z.
Proof.
  split.
  { apply Forall_app. split.
    - apply Forall_forall. intros o Ho. apply in_map_iff in Ho. destruct Ho as [i [<- _]]. exact I.
    - repeat constructor; unfold valid; cbn; lia. }
  destruct (rrun cfg40 need40 200 new_tree rops40) as [[[nx t] xs]|] eqn:E1; [|vm_compute in E1; discriminate].
  destruct (rrun cfg40 need40 200 new_tree (firstn 12 rops40)) as [[[nx1 t1] xs1]|] eqn:E2;
    [|vm_compute in E2; discriminate].
  exists nx, t, xs, nx1, t1, xs1.
  vm_compute in E1. injection E1 as <- <- <-. vm_compute in E2. injection E2 as <- <- <-.
  vm_compute. tauto.
Qed.

(** ** C38: a range update reaches every key *)

(** No: key 20 is gone and its leaf has nothing from 15 on; the update of all
    keys from 15 answers not_found and changes nothing. *)
Theorem c38_update_refuted : exists ops nx t xs r,
  valid r /\ run cfg40 200 new_tree ops = Ok ((nx, t), xs) /\
  in_range r 30 = true /\ get t 30 = Ok (Some 3%N) /\
  rput cfg40 200 nx t (need40 77) r PUpdate 77 None = Ok (t, nx, StNotFound).
Proof.
  exists (map (fun i => OPut PInsert (Z.of_nat i * 10) (N.of_nat i) None) (seq 1 12) ++ [ORemove 20]).
  do 3 eexists. exists (KRange 15 true 200 true MAny).
  split; [left; cbn; lia|]. split; [vm_compute; reflexivity|].
  split; [reflexivity|]. split; [reflexivity|]. vm_compute. reflexivity.
Qed.
Print Assumptions c38_update_refuted.

(** Nor does not_found mean that nothing was done: the range ends at 65, in the
    leaf of 70 and 80; everything before is updated, the answer is not_found. *)
Theorem c38_update_status_refuted : exists ops nx t xs r t' nx',
  valid r /\ run cfg40 200 new_tree ops = Ok ((nx, t), xs) /\
  in_range r 30 = true /\ get t 30 = Ok (Some 3%N) /\
  rput cfg40 200 nx t (need40 77) r PUpdate 77 None = Ok (t', nx', StNotFound) /\
  get t' 30 = Ok (Some 77%N) /\ get t' 60 = Ok (Some 77%N).
Proof.
  exists (map (fun i => OPut PInsert (Z.of_nat i * 10) (N.of_nat i) None) (seq 1 12)).
  do 3 eexists. exists (KRange 30 true 65 true MAny). do 2 eexists.
  split; [left; cbn; lia|]. split; [vm_compute; reflexivity|]. split; [reflexivity|].
  split; [reflexivity|]. split; [vm_compute; reflexivity|]. split; reflexivity.
Qed.
Print Assumptions c38_update_status_refuted.

(** ** C39: any key of a range *)

(** get_any looks only in the leaf of the start key. *)
Theorem c39_get_any_refuted : exists ops nx t xs r,
  valid r /\ r_opt r = MAny /\ run cfg40 200 new_tree ops = Ok ((nx, t), xs) /\
  in_range r 30 = true /\ get t 30 = Ok (Some 3%N) /\ tget_any t r = Ok None.
Proof.
  exists (map (fun i => OPut PInsert (Z.of_nat i * 10) (N.of_nat i) None) (seq 1 12) ++ [ORemove 20]).
  do 3 eexists. exists (KRange 15 true 200 true MAny).
  split; [left; cbn; lia|]. split; [reflexivity|]. split; [vm_compute; reflexivity|].
  split; [reflexivity|]. split; [reflexivity|]. vm_compute. reflexivity.
Qed.
Print Assumptions c39_get_any_refuted.

(** remove_any takes child (end - start) / 2 of an interior node, which may lie
    before the range: nothing is removed though all keys of the range exist. *)
Theorem c39_remove_any_refuted : exists ops nx t xs r,
  valid r /\ r_opt r = MAny /\ run cfg40 200 new_tree ops = Ok ((nx, t), xs) /\
  in_range r 110 = true /\ get t 110 = Ok (Some 11%N) /\
  tremove_any cfg40 200 nx t r = Ok (t, nx, None).
Proof.
  exists (map (fun i => OPut PInsert (Z.of_nat i * 10) (N.of_nat i) None) (seq 1 12)).
  do 3 eexists. exists (KRange 110 true 120 true MAny).
  split; [left; cbn; lia|]. split; [reflexivity|]. split; [vm_compute; reflexivity|].
  split; [reflexivity|]. split; [reflexivity|]. vm_compute. reflexivity.
Qed.
Print Assumptions c39_remove_any_refuted.

(** What get_any is good for: a start key that is there and included. *)
Theorem c39_get_any_start_partial : forall c fuel ops nx t xs r k v, cfg_ok c ->
  run c fuel new_tree ops = Ok ((nx, t), xs) -> get t k = Ok (Some v) ->
  r_start r = k -> r_sincl r = true -> r_opt r = MAny ->
  tget_any t r = Ok (Some (k, v)).
Proof.
  intros c fuel ops nx t xs r k v Hok HR HG HS HI HO.
  destruct (run_ok _ _ _ new_tree _ _ (fun _ => None) Hok new_tree_ok (fun _ => eq_refl) HR)
    as [HT _]. cbn [fst snd] in *. rewrite (get_tree_ok _ _ _ HT) in HG. injection HG as HG.
  destruct HT as [[h HW] _]. unfold tget_any. rewrite (wf_level _ _ _ _ HW).
  assert (H : forall h lo hi t n, wf h lo hi t -> inb lo hi k -> (h < n)%nat ->
    assoc (content t) k = Some v -> do_get_any n t r = Ok (Some (k, v))).
  { clear - HS HI HO. induction h as [|h IH]; intros lo hi [id next es|id next es ed] n HW HK HF HA;
      cbn in HW; try contradiction; (destruct n as [|n]; [lia|]); cbn [do_get_any].
    - destruct HW as [HSo _]. unfold content, items in HA. cbn in HA. rewrite app_nil_r in HA.
      unfold get_any. destruct (bsearch_split es (r_start r) HSo) as [a [b [-> [Ha [Hb ->]]]]].
      rewrite assoc_app, (assoc_lt a k) in HA by (rewrite <- HS; exact Ha).
      destruct b as [|[k1 v1] b]; [discriminate|]. cbn in HA.
      assert (k1 = k).
      { destruct (Z.eqb_spec k1 k) as [|Hn]; [assumption|]. exfalso.
        apply sorted_app in HSo. destruct HSo as [_ [HSo _]]. apply sorted_cons in HSo.
        destruct HSo as [HSo _]. cbn [fst] in HSo. unfold all_gt in HSo. rewrite Forall_forall in HSo.
        assert (HX : assoc b k = None).
        { apply assoc_none. intros HI2. apply in_map_iff in HI2. destruct HI2 as [q [Hq1 Hq2]].
          specialize (HSo q Hq2). inversion Hb; subst. cbn [fst] in *. lia. }
        congruence. }
      subst k1. rewrite Z.eqb_refl in HA. injection HA as ->.
      cbn [found_in]. rewrite HS, Z.eqb_refl, HI, HO. cbn [negb andb].
      unfold any_at. rewrite nth_len_app. reflexivity.
    - destruct HW as [HN HC].
      destruct (find_slot _ _ _ _ _ _ HC HK) as [p [u [x [q [m [HE [Hidx [HP [HB [HX HQ]]]]]]]]]].
      rewrite HS, Hidx, (child_at_slot _ _ _ _ _ _ HE).
      eapply IH; [exact HX|exact HB|lia|].
      rewrite content_inner, HE, (assoc_slot h lo m u hi) in HA by assumption. exact HA. }
  eapply H; [exact HW|apply inb_top|lia|exact HG].
Qed.
Print Assumptions c39_get_any_start_partial.
