(** Ascending entries, the entry for a key, and several children as one list. *)
From Coq Require Import ZArith List Bool Arith Lia.
From Verif Require Import ConcBtModel ConcBtSpec.
Import ListNotations.
Local Open Scope Z_scope.

Definition blast (e : ent) : Prop := fst e = None.
(** b is below every key not below k *)
Notation "b <k k" := (ble k b = false) (at level 70).

Lemma blt_trans : forall a b c, blt a b -> blt b c -> blt a c.
Proof. intros [a|] [b|] [c|]; cbn; lia || tauto. Qed.
Lemma blt_ble : forall k a b, blt a b -> ble k a = true -> ble k b = true.
Proof. intros k [a|] [b|]; cbn; intros; try lia; try tauto. Qed.
Lemma lt_blt : forall k b, b <k k <-> blt b (Some k).
Proof. intros k [b|]; cbn; split; intro; try lia; try discriminate; tauto. Qed.
Lemma not_lt : forall k b, ble k b = true <-> ~ blt b (Some k).
Proof. intros k [b|]; cbn; split; intro; try lia; tauto. Qed.

Lemma asc_app : forall x y, asc (x ++ y) <-> asc x /\ asc y /\ (forall e f, In e x -> In f y -> blt (fst e) (fst f)).
Proof.
  induction x as [|e x IH]; intros y; cbn; [intuition|].
  rewrite IH. split.
  - intros (A & B & C & D). repeat split; auto.
    + intros f Hf. apply A, in_app_iff; auto.
    + intros e' f [<-|He] Hf; [apply A, in_app_iff; auto|auto].
  - intros ((A & B) & C & D). repeat split; auto.
    intros f Hf. apply in_app_iff in Hf as [Hf|Hf]; auto.
Qed.

Lemma pick_app : forall k x y, pick k (x ++ y) = match pick k x with Some e => Some e | None => pick k y end.
Proof.
  intros k; induction x as [|e x IH]; intros y; cbn; [reflexivity|].
  destruct (ble k (fst e)); [reflexivity|apply IH].
Qed.
Lemma pick_none : forall k x, pick k x = None <-> (forall e, In e x -> fst e <k k).
Proof.
  intros k; induction x as [|e x IH]; cbn; [intuition|].
  destruct (ble k (fst e)) eqn:E; split; intros H.
  - discriminate.
  - specialize (H e (or_introl eq_refl)). congruence.
  - intros f [<-|Hf]; [assumption|]. apply IH; assumption.
  - apply IH. auto.
Qed.
Lemma pick_some : forall k x e, pick k x = Some e ->
  exists y z, x = y ++ e :: z /\ (forall f, In f y -> fst f <k k) /\ ble k (fst e) = true.
Proof.
  intros k; induction x as [|a x IH]; intros e; cbn; [discriminate|].
  destruct (ble k (fst a)) eqn:E.
  - intros [= ->]. exists [], x. cbn. intuition.
  - intros H. destruct (IH _ H) as (y & z & -> & A & B). exists (a :: y), z. cbn. intuition. congruence.
Qed.
Lemma pick_in : forall k x e, pick k x = Some e -> In e x.
Proof. intros k x e H. now apply find_some in H. Qed.
Lemma pick_ble : forall k x e, pick k x = Some e -> ble k (fst e) = true.
Proof. intros k x e H. now apply find_some in H. Qed.
Lemma pick_mid : forall k y e z, (forall f, In f y -> fst f <k k) -> ble k (fst e) = true -> pick k (y ++ e :: z) = Some e.
Proof. intros k y e z A B. rewrite pick_app. apply pick_none in A as ->. cbn. now rewrite B. Qed.

Lemma last_in : forall A (l : list A) d, l <> [] -> In (last l d) l.
Proof.
  induction l as [|a [|b l] IH]; intros d H; [tauto|left; reflexivity|].
  right. apply IH. discriminate.
Qed.
Lemma lastb_app : forall x y, y <> [] -> lastb (x ++ y) = lastb y.
Proof.
  intros x y H. unfold lastb. destruct (exists_last H) as (y' & e & ->).
  rewrite app_assoc, !last_last. reflexivity.
Qed.
Lemma lastb_snoc : forall x e, lastb (x ++ [e]) = fst e.
Proof. intros. rewrite lastb_app; [reflexivity|discriminate]. Qed.
Lemma lastb_in : forall x, x <> [] -> exists e, In e x /\ fst e = lastb x.
Proof. intros x H. exists (last x (None, 0)). split; [now apply last_in|reflexivity]. Qed.
Lemma asc_last : forall x e, asc x -> In e x -> fst e = lastb x \/ blt (fst e) (lastb x).
Proof.
  intros x e H He. destruct (in_split _ _ He) as (y & z & ->).
  destruct z as [|a z]; [left; symmetry; apply lastb_snoc|right].
  change (y ++ e :: a :: z) with (y ++ [e] ++ a :: z). rewrite app_assoc, lastb_app by discriminate.
  destruct (lastb_in (a :: z)) as (f & Hf & <-); [discriminate|].
  apply asc_app in H as (_ & H & _). apply H. assumption.
Qed.
Lemma asc_last_ble : forall x k, asc x -> x <> [] -> ble k (lastb x) = true -> pick k x <> None.
Proof.
  intros x k H Hx Hk E. rewrite pick_none in E. destruct (lastb_in x Hx) as (e & He & Ee).
  specialize (E _ He). congruence.
Qed.
Lemma asc_above : forall x k, asc x -> x <> [] -> lastb x <k k -> pick k x = None.
Proof.
  intros x k H Hx Hk. apply pick_none. intros e He.
  destruct (asc_last _ _ H He) as [->|E]; [assumption|].
  destruct (ble k (fst e)) eqn:Ek; [|reflexivity]. rewrite (blt_ble _ _ _ E Ek) in Hk. discriminate.
Qed.
Lemma asc_none_last : forall x e, asc x -> In e x -> fst e = None -> lastb x = None.
Proof.
  intros x e H He E. destruct (asc_last _ _ H He) as [<-|B]; [assumption|]. rewrite E in B. destruct B.
Qed.
Lemma asc_same : forall x b v w, asc x -> In (b, v) x -> In (b, w) x -> v = w.
Proof.
  induction x as [|e x IH]; intros b v w H Hv Hw; [destruct Hv|].
  destruct H as [A B]. destruct Hv as [->|Hv], Hw as [E|Hw]; [congruence| | |eauto].
  - specialize (A _ Hw). cbn in A. destruct b as [b|]; cbn in A; [lia|tauto].
  - subst e. specialize (A _ Hv). cbn in A. destruct b as [b|]; cbn in A; [lia|tauto].
Qed.

(** ** Values in a leaf *)
Lemma look_in : forall x k v, asc x -> In (Some k, v) x -> look k x = Some v.
Proof.
  intros x k v H Hi. unfold look.
  destruct (List.find (is_key k) x) as [[b w]|] eqn:E.
  - apply find_some in E as [E1 E2]. unfold is_key in E2. cbn in E2. destruct b as [b|]; [|discriminate].
    apply Z.eqb_eq in E2 as ->. cbn. f_equal. eapply asc_same; eassumption.
  - exfalso. apply (find_none _ _ E) in Hi. unfold is_key in Hi. cbn in Hi. now rewrite Z.eqb_refl in Hi.
Qed.
Lemma look_some : forall x k v, look k x = Some v -> In (Some k, v) x.
Proof.
  intros x k v. unfold look. destruct (List.find (is_key k) x) as [[b w]|] eqn:E; [|discriminate].
  intros [= <-]. apply find_some in E as [E1 E2]. unfold is_key in E2. cbn in *. destruct b; [|discriminate].
  apply Z.eqb_eq in E2 as ->. assumption.
Qed.
Lemma look_ext : forall x y k, asc x -> asc y -> (forall v, In (Some k, v) x <-> In (Some k, v) y) -> look k x = look k y.
Proof.
  intros x y k Hx Hy H. destruct (look k x) as [v|] eqn:E.
  - apply look_some, H in E. symmetry. now apply look_in.
  - destruct (look k y) as [v|] eqn:F; [|reflexivity].
    apply look_some, H in F. rewrite (look_in _ _ _ Hx F) in E. discriminate.
Qed.

Definition keys_only (x : list ent) := forall e, In e x -> fst e <> None.
Lemma in_ins : forall k v x e, asc x -> keys_only x -> (In e (ins k v x) <-> e = (Some k, v) \/ In e x /\ fst e <> Some k).
Proof.
  intros k v; induction x as [|[b w] x IH]; intros e H Hk; cbn [ins].
  - cbn. intuition congruence.
  - destruct b as [z|]; [|exfalso; apply (Hk (None, w)); [left|]; reflexivity].
    destruct H as [A B]. destruct (Z.eqb_spec z k) as [->|Hz]; [|destruct (Z.ltb_spec k z)].
    + split.
      * intros [<-|Hi]; [now left|]. right. split; [now right|]. intros E. specialize (A _ Hi). rewrite E in A. cbn in A. lia.
      * intros [->|[[<-|Hi] Hn]]; [now left|cbn in Hn; tauto|now right].
    + split.
      * intros [<-|Hi]; [now left|]. right. split; [assumption|]. intros E. destruct Hi as [<-|Hi]; [cbn in E; congruence|].
        specialize (A _ Hi). rewrite E in A. cbn in A. lia.
      * intros [->|[Hi _]]; [now left|now right].
    + specialize (IH e B (fun e He => Hk e (or_intror He))). cbn [In]. rewrite IH.
      split.
      * intros [<-|[->|[Hi Hn]]]; [right|now left|right; auto]. split; [now left|]. intros [= E]. tauto.
      * intros [->|[[<-|Hi] Hn]]; auto.
Qed.
Lemma asc_ins : forall k v x, asc x -> keys_only x -> asc (ins k v x).
Proof.
  intros k v; induction x as [|[b w] x IH]; intros H Hk; cbn [ins]; [cbn; tauto|].
  destruct b as [z|]; [|exfalso; apply (Hk (None, w)); [left|]; reflexivity].
  destruct H as [A B]. destruct (Z.eqb_spec z k) as [->|Hz]; [|destruct (Z.ltb_spec k z)].
  - split; assumption.
  - split; [|split; assumption]. intros e [<-|He]; [assumption|].
    apply blt_trans with (Some z); [assumption|]. apply A. assumption.
  - assert (K : keys_only x) by (intros e He; apply Hk; now right).
    split; [|now apply IH]. intros e He. apply in_ins in He as [->|[He _]]; auto. cbn. lia.
Qed.
Lemma in_del : forall k x e, In e (del k x) <-> In e x /\ fst e <> Some k.
Proof.
  intros k x e. unfold del. rewrite filter_In. unfold is_key. destruct (fst e) as [z|]; cbn.
  - destruct (Z.eqb_spec z k) as [->|Hz]; cbn; split; intros [A B]; split; auto; congruence.
  - split; intros [A B]; split; auto; congruence.
Qed.
Lemma asc_del : forall k x, asc x -> asc (del k x).
Proof.
  intros k; induction x as [|e x IH]; intros H; cbn; [tauto|]. destruct H as [A B].
  destruct (negb (is_key k e)); [|auto]. split; [|auto]. intros f Hf. apply in_del in Hf as [Hf _]. auto.
Qed.

(** A leaf operation is the operation of the map on the key. *)
Lemma leaf_op_spec : forall o x l r ch, asc x -> keys_only x -> leaf_op o x = (l, r, ch) ->
  asc l /\ keys_only l
  /\ (forall e, In e l -> fst e = Some (key o) \/ In e x)
  /\ (forall m : kv, m (key o) = look (key o) x ->
       snd (apply o m) = r /\ forall k, fst (apply o m) k = if k =? key o then look k l else m k)
  /\ (forall k, k <> key o -> look k l = look k x).
Proof.
  intros o x l r ch Hx Hk E.
  assert (Lins : forall k v, look k (ins k v x) = Some v).
  { intros. apply look_in; [now apply asc_ins|]. apply in_ins; auto. }
  assert (Lins' : forall k v k', k' <> k -> look k' (ins k v x) = look k' x).
  { intros k v k' Hn. apply look_ext; [now apply asc_ins|assumption|]. intros w. rewrite in_ins by assumption. cbn. intuition congruence. }
  assert (Ldel : forall k, look k (del k x) = None).
  { intros k. destruct (look k (del k x)) eqn:F; [|reflexivity]. apply look_some, in_del in F as [_ F]. cbn in F. tauto. }
  assert (Ldel' : forall k k', k' <> k -> look k' (del k x) = look k' x).
  { intros k k' Hn. apply look_ext; [now apply asc_del|assumption|]. intros w. rewrite in_del. cbn. intuition congruence. }
  assert (Hins : forall k v, keys_only (ins k v x)).
  { intros k v e He. apply in_ins in He as [->|[He _]]; [discriminate| |assumption|assumption]. now apply Hk. }
  assert (Hdel : forall k, keys_only (del k x)).
  { intros k e He. apply in_del in He as [He _]. now apply Hk. }
  assert (Ein : forall k v e, In e (ins k v x) -> fst e = Some k \/ In e x).
  { intros k v e He. apply in_ins in He as [->|[He _]]; auto. }
  assert (Edel : forall k e, In e (del k x) -> fst e = Some k \/ In e x).
  { intros k e He. apply in_del in He as [He _]; auto. }
  destruct o as [k|[] k v|k]; cbn [leaf_op key] in E |- *; destruct (look k x) as [w|] eqn:L;
    injection E as <- <- <-; (split; [auto using asc_ins, asc_del|]); (split; [auto|]);
    (split; [eauto|]); (split; [|auto]); intros m Hm; cbn [apply]; rewrite ?Hm; cbn [fst snd];
    (split; [reflexivity|]); intros k'; unfold set; destruct (Z.eqb_spec k' k) as [->|];
    rewrite ?Lins, ?Ldel, ?Hm; congruence.
Qed.

(** ** Children as one list *)

(** Where a key picks one of several children and something in it. *)
Lemma pick_concat : forall k (bs : list ext) (parts : list (list ent)) (ns : list Z),
  length bs = length parts -> length ns = length parts ->
  (forall x, In x parts -> x <> []) -> bs = map lastb parts -> asc (concat parts) ->
  match pick k (combine bs ns) with
  | Some (_, n) => exists p, In (n, p) (combine ns parts) /\ pick k p = pick k (concat parts)
  | None => pick k (concat parts) = None
  end.
Proof.
  intros k bs parts. revert bs. induction parts as [|x parts IH]; intros bs ns Hb Hn Hx Eb Ha; cbn in Eb; subst bs.
  - reflexivity.
  - destruct ns as [|n ns]; [discriminate|]. cbn [map combine pick List.find fst snd].
    fold (pick k). cbn [concat] in Ha |- *. rewrite pick_app.
    assert (Nx : x <> []) by (apply Hx; left; reflexivity).
    apply asc_app in Ha as (A1 & A2 & A3).
    destruct (ble k (lastb x)) eqn:E.
    + exists x. split; [left; reflexivity|].
      destruct (pick k x) eqn:P; [reflexivity|]. exfalso. exact (asc_last_ble x k A1 Nx E P).
    + rewrite (asc_above x k) by assumption.
      cbn in Hn. specialize (IH (map lastb parts) ns). rewrite map_length in IH.
      specialize (IH eq_refl ltac:(lia) (fun y Hy => Hx y (or_intror Hy)) eq_refl A2).
      change (List.find (fun e : ent => ble k (fst e)) (combine (map lastb parts) ns)) with (pick k (combine (map lastb parts) ns)).
      destruct (pick k (combine (map lastb parts) ns)) as [[b m]|]; [|assumption].
      destruct IH as (p & Hp & Ep). exists p. split; [right; assumption|assumption].
Qed.
