(** Proofs about the raft configuration superblock. *)
From Coq Require Import List ZArith Lia Bool String.
From Verif Require Import RaftStateModel RaftStateSpec.
Import ListNotations.
Open Scope string_scope.
Open Scope Z_scope.

Lemma assoc_put k v l : assoc k (put k v l) = Some v.
Proof.
  induction l as [|[k' v'] l IH]; cbn; [now rewrite String.eqb_refl|].
  destruct (String.eqb k' k) eqn:E; cbn; [now rewrite String.eqb_refl|]. rewrite E. exact IH.
Qed.

Lemma assoc_put_ne k k' v l : k <> k' -> assoc k (put k' v l) = assoc k l.
Proof.
  intros N. induction l as [|[k2 v2] l IH]; cbn.
  - destruct (String.eqb_spec k' k); [congruence|reflexivity].
  - destruct (String.eqb_spec k2 k') as [->|N2]; cbn.
    + destruct (String.eqb_spec k' k); [congruence|reflexivity].
    + destruct (String.eqb k2 k); [reflexivity|exact IH].
Qed.

Definition is_obj (j : json) : Prop := exists l, j = JObj l.

Lemma get_set k v j : get k (set k v j) = Some v.
Proof. destruct j; cbn; rewrite ?String.eqb_refl; try reflexivity. apply assoc_put. Qed.

Lemma get_set_ne k k' v j : is_obj j -> k <> k' -> get k (set k' v j) = get k j.
Proof. intros [l ->] N. cbn. now apply assoc_put_ne. Qed.

Lemma obj_set k v j : is_obj (set k v j).
Proof. destruct j; cbn; eexists; reflexivity. Qed.

Lemma all_map {A B} (f : A -> option B) (g : B -> A) l : (forall x, f (g x) = Some x) -> all (map f (map g l)) = Some l.
Proof. intros H. induction l as [|x l IH]; cbn; [reflexivity|]. rewrite H, IH. reflexivity. Qed.

Lemma servers_round l : all (map deser_srv (ser_servers l)) = Some (present l).
Proof.
  induction l as [|[[i d e a b p]|] l IH]; cbn; [reflexivity| |exact IH]. rewrite IH. reflexivity.
Qed.

Lemma cfg_round c : deser_cfg (ser_cfg c) = Some (Cfg (log_idx c) (prev_idx c) (eventual c) (uctx c) (present (servers c))).
Proof. destruct c as [i p e u s]. cbn. rewrite servers_round. reflexivity. Qed.

(** *** State *)

Lemma read_put K st j : is_obj j -> read_state K (put_state K st j) = Read st.
Proof.
  intros O. unfold read_state, put_state, at_.
  rewrite get_set. rewrite get_set_ne; [|apply obj_set|discriminate]. rewrite get_set.
  assert (N := enc_ne K st).
  assert (E : empty (JArr (map JNum (enc K st))) = false) by (destruct (enc K st); [congruence|reflexivity]).
  rewrite E. cbn [empty andb negb]. rewrite (all_map as_num JNum) by reflexivity. cbn [bind]. now rewrite enc_dec.
Qed.

Lemma read_other K k v j : is_obj j -> k <> "state" -> k <> "nuraft_state" ->
  read_state K (set k v j) = read_state K j.
Proof.
  intros O A B. unfold read_state, at_. rewrite !get_set_ne by auto. reflexivity.
Qed.

Lemma put_state_cfg K st j : is_obj j -> get "config" (put_state K st j) = get "config" j.
Proof.
  intros O. unfold put_state. rewrite get_set_ne; [|apply obj_set|discriminate].
  rewrite get_set_ne; [reflexivity|exact O|discriminate].
Qed.

Lemma read_with K me j : is_obj j -> read_state K (with_config me j) = read_state K j.
Proof.
  intros O. unfold with_config. destruct (get "config" j); [reflexivity|]. apply read_other; [exact O|discriminate|discriminate].
Qed.

Lemma obj_with me j : is_obj j -> is_obj (with_config me j).
Proof. intros O. unfold with_config. destruct (get "config" j); [exact O|apply obj_set]. Qed.

(** What a superblock says about the configuration. *)
Definition says (me : srv) (j : json) (c : option cfg) : Prop :=
  match c with
  | Some c => get "config" j = Some (ser_cfg c)
  | None => get "config" j = None \/ get "config" j = Some (ser_cfg (alone me))
  end.

Lemma says_with me j c : says me j c -> says me (with_config me j) c.
Proof.
  unfold with_config, says. destruct c as [c|].
  - intros E. now rewrite E.
  - intros [E|E]; rewrite E; [right; apply get_set|now right].
Qed.

Record Inv (K : codec) (me : srv) (r : rep) (l : list ev) : Prop := MkInv {
  i_mo : is_obj (mem r);
  i_do : is_obj (disk r);
  i_disk : read_state K (disk r) = Read (last_state l);
  i_cur : forall o, cur r = Some o -> o = last_state l /\ read_state K (mem r) = Read (last_state l) /\ says me (mem r) (last_cfg l);
  i_says : says me (disk r) (last_cfg l) }.

Lemma last_state_snoc l e : last_state (l ++ [e]) = match e with Save st | SaveCrash st true => st | _ => last_state l end.
Proof. unfold last_state. now rewrite fold_left_app. Qed.
Lemma last_cfg_snoc l e : last_cfg (l ++ [e]) = match e with SetCfg c | CfgCrash c true => Some c | _ => last_cfg l end.
Proof. unfold last_cfg. now rewrite fold_left_app. Qed.

Lemma start_inv K me g : Inv K me (start g) [].
Proof.
  constructor; cbn.
  - eexists. reflexivity.
  - eexists. reflexivity.
  - reflexivity.
  - intros o [= <-]. repeat split. now left.
  - now left.
Qed.

Lemma step_inv K me r l e r' : Inv K me r l -> step K me r e = Some r' -> Inv K me r' (l ++ [e]).
Proof.
  intros I S1. destruct r as [m d [o|]].
  - destruct (i_cur _ _ _ _ I o eq_refl) as (CO & CM & CS). cbn [mem] in CM, CS.
    assert (MO := i_mo _ _ _ _ I). cbn [mem] in MO.
    assert (DO := i_do _ _ _ _ I). cbn [disk] in DO.
    assert (DR := i_disk _ _ _ _ I). cbn [disk] in DR.
    assert (DS := i_says _ _ _ _ I). cbn [disk] in DS.
    assert (PO : forall st, is_obj (put_state K st m)) by (intros; apply obj_set).
    assert (PS : forall st, says me (put_state K st m) (last_cfg l)).
    { intros st. unfold says in *. rewrite put_state_cfg by exact MO. exact CS. }
    destruct e as [st|st b|c|c b| | |]; cbn [step cur mem disk] in S1; try discriminate.
    + destruct (follows o st); [|discriminate]. injection S1 as <-.
      constructor; cbn [mem disk cur]; rewrite ?last_state_snoc, ?last_cfg_snoc; auto.
      * now apply read_put.
      * intros o' [= <-]. repeat split; auto. now apply read_put.
    + destruct (follows o st); [|discriminate]. injection S1 as <-.
      constructor; cbn [mem disk cur]; rewrite ?last_state_snoc, ?last_cfg_snoc; auto.
      * destruct b; auto.
      * destruct b; [now apply read_put|exact DR].
      * intros o' [=].
      * destruct b; auto.
    + injection S1 as <-.
      assert (RR : read_state K (set "config" (ser_cfg c) m) = Read (last_state l)) by (rewrite read_other; [exact CM|exact MO|discriminate|discriminate]).
      constructor; cbn [mem disk cur]; rewrite ?last_state_snoc, ?last_cfg_snoc; auto; try apply obj_set.
      * intros o' [= <-]. repeat split; auto. cbn. apply get_set.
      * cbn. apply get_set.
    + injection S1 as <-.
      assert (RR : read_state K (set "config" (ser_cfg c) m) = Read (last_state l)) by (rewrite read_other; [exact CM|exact MO|discriminate|discriminate]).
      constructor; cbn [mem disk cur]; rewrite ?last_state_snoc, ?last_cfg_snoc; try apply obj_set.
      * destruct b; [apply obj_set|exact DO].
      * destruct b; [exact RR|exact DR].
      * intros o' [=].
      * destruct b; [cbn; apply get_set|exact DS].
    + injection S1 as <-. constructor; cbn [mem disk cur]; rewrite ?last_state_snoc, ?last_cfg_snoc; auto.
      * now apply obj_with.
      * intros o' [= <-]. repeat split; auto; [now rewrite read_with|now apply says_with].
    + injection S1 as <-. constructor; cbn [mem disk cur]; rewrite ?last_state_snoc, ?last_cfg_snoc; auto. intros o' [=].
  - destruct I as [I1 I2 I3 I4 I5]. cbn [mem disk cur] in *.
    destruct e; cbn [step cur mem disk] in S1; try discriminate.
    + injection S1 as <-. constructor; cbn [mem disk cur]; rewrite ?last_state_snoc, ?last_cfg_snoc; auto; intros o' [=].
    + rewrite I3 in S1. injection S1 as <-. constructor; cbn [mem disk cur]; rewrite ?last_state_snoc, ?last_cfg_snoc; auto.
      intros o' [= <-]. auto.
Qed.

Lemma run_app K me : forall l l' r, run K me r (l ++ l') = match run K me r l with Some r' => run K me r' l' | None => None end.
Proof. induction l as [|e l IH]; intros l' r; cbn; [reflexivity|]. destruct (step K me r e); auto. Qed.

Lemma reach K me g l r : run K me (start g) l = Some r -> Inv K me r l.
Proof.
  revert r. induction l as [|e l IH] using rev_ind; intros r R.
  - injection R as <-. apply start_inv.
  - rewrite run_app in R. destruct (run K me (start g) l) as [r0|]; [|discriminate]. cbn in R.
    destruct (step K me r0 e) as [r1|] eqn:E; [|discriminate]. injection R as <-. eapply step_inv; eauto.
Qed.

Lemma follows_iff o n : follows o n = true <-> term o < term n \/ (term o = term n /\ (voted o = none \/ voted n = voted o)).
Proof.
  unfold follows. rewrite orb_true_iff, andb_true_iff, orb_true_iff, Z.ltb_lt, !Z.eqb_eq. tauto.
Qed.

(** Votes told so far are behind the last state or agree with it. *)
Definition kept (l : list ev) : Prop :=
  forall t c, In (t, c) (votes l) -> c <> none /\
    (t < term (last_state l) \/ (t = term (last_state l) /\ c = voted (last_state l))).

Lemma votes_app l l' : votes (l ++ l') = (votes l ++ votes l')%list.
Proof.
  induction l as [|e l IH]; cbn; [reflexivity|]. destruct e; auto. destruct (voted st =? none); cbn; now rewrite IH.
Qed.

Lemma kept_all K me g l r : run K me (start g) l = Some r ->
  kept l /\ (forall t c c', In (t, c) (votes l) -> In (t, c') (votes l) -> c = c').
Proof.
  revert r. induction l as [|e l IH] using rev_ind; intros r R.
  - split; [intros t c []|intros t c c' []].
  - rewrite run_app in R. destruct (run K me (start g) l) as [r0|] eqn:R0; [|discriminate]. cbn in R.
    destruct (step K me r0 e) as [r1|] eqn:E; [|discriminate]. injection R as <-.
    destruct (IH r0 eq_refl) as [KP ON]. assert (I := reach _ _ _ _ _ R0).
    assert (FS : forall st, (e = Save st \/ exists b, e = SaveCrash st b) -> follows (last_state l) st = true).
    { intros st X. destruct (cur r0) as [o|] eqn:C.
      - destruct (i_cur _ _ _ _ I o C) as [-> _].
        destruct X as [->|[b ->]]; unfold step in E; rewrite C in E; destruct (follows (last_state l) st); congruence.
      - destruct X as [->|[b ->]]; unfold step in E; rewrite C in E; discriminate. }
    assert (MV : forall st, follows (last_state l) st = true -> forall t c, In (t, c) (votes l) ->
       t < term st \/ (t = term st /\ c = voted st)).
    { intros st F t c X. destruct (KP t c X) as [NN Y]. apply follows_iff in F.
      destruct Y as [Y|[Y1 Y2]]; destruct F as [F|[F1 F2]]; [left; lia|left; lia|left; lia|].
      right. split; [lia|]. subst c. destruct F2 as [F2|F2]; congruence. }
    unfold kept. rewrite last_state_snoc, votes_app.
    destruct e as [st|st b|c|c b| | |]; cbn [votes]; rewrite ?app_nil_r; try (split; assumption).
    + specialize (FS st (or_introl eq_refl)).
      destruct (Z.eqb_spec (voted st) none) as [V|V].
      * rewrite app_nil_r. split; [|exact ON]. intros t c X. split; [exact (proj1 (KP t c X))|]. now apply MV.
      * split.
        -- intros t c X. apply in_app_iff in X. destruct X as [X|[[= <- <-]|[]]].
           ++ split; [exact (proj1 (KP t c X))|]. now apply MV.
           ++ split; [exact V|]. right. auto.
        -- intros t c c' X Y. apply in_app_iff in X, Y.
           destruct X as [X|[[= <- <-]|[]]], Y as [Y|[Y|[]]].
           ++ eapply ON; eauto.
           ++ injection Y as <- <-. destruct (MV st FS _ _ X) as [Z|[_ Z]]; [lia|congruence].
           ++ destruct (MV st FS _ _ Y) as [Z|[_ Z]]; [lia|congruence].
           ++ congruence.
    + destruct b; [|split; assumption]. specialize (FS st (or_intror (ex_intro _ true eq_refl))).
      split; [|exact ON]. intros t c X. split; [exact (proj1 (KP t c X))|]. now apply MV.
Qed.
