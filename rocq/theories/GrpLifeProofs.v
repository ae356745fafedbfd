(** Invariants of the life of replica groups. *)
From stdpp Require Import gmap.
From Verif Require Import GrpLifeModel GrpLifeSpec.
Open Scope N_scope.

Definition isD (x : stage) : bool := match x with Destroyed => true | Active => false end.
Definition ofc (x : grp) : option N := if g_lis x then Some (g_val x) else None.

Definition own (f : option pc) (m : option grp) : option N :=
  match f with
  | Some (C1 ld) | Some (C2 ld) | Some (C3 ld) | Some (C4 ld) => Some ld
  | Some C0 | Some D3 | Some D4 => None
  | _ => g_ld <$> m
  end.

Definition row (f : option pc) (m : option grp) (r : option rdsb) (c : option N) (a : bool) (d : gset N) (l : N) : Prop :=
  match f with
  | None =>
    match m with
    | None => r = None /\ c = None
    | Some x => r = Some (Rd (g_ld x) (isD (g_st x))) /\ c = ofc x /\ g_ld x ∈ d
    end
  | Some C0 => m = None /\ r = None /\ c = None /\ a = true
  | Some (C1 ld) => m = None /\ r = None /\ c = None /\ a = true /\ ld ∉ d
  | Some (C2 ld) => m = None /\ r = None /\ c = None /\ a = true /\ ld ∈ d
  | Some (C3 ld) => m = None /\ r = Some (Rd ld false) /\ c = None /\ ld ∈ d
  | Some (C4 ld) => m = None /\ r = Some (Rd ld false) /\ c = Some 0 /\ ld ∈ d
  | Some L1 => exists x, m = Some x /\ g_st x = Destroyed /\ r = Some (Rd (g_ld x) false) /\ c = ofc x /\ g_ld x ∈ d
  | Some D0 | Some D1 => exists x, m = Some x /\ g_st x = Destroyed /\ r = Some (Rd (g_ld x) true) /\ c = ofc x /\ g_ld x ∈ d
  | Some D2 => exists x, m = Some x /\ g_st x = Destroyed /\ r = Some (Rd (g_ld x) true) /\ c = None /\ g_ld x ∈ d
  | Some D3 => exists x, m = Some x /\ g_st x = Destroyed /\ r = Some (Rd (g_ld x) true) /\ c = None
  | Some D4 => exists x, m = Some x /\ g_st x = Destroyed /\ r = None /\ c = None
  end.

Definition rowok (s : st) (g : N) : Prop :=
  row (fl s !! g) (gs s !! g) (rds s !! g) (cfgs s !! g) (asked (out s) g) (devs s) (last s).
Definition owns (s : st) (g : N) : option N := own (fl s !! g) (gs s !! g).

Record Glob (s : st) : Prop := {
  g_devs : forall x, x ∈ devs s -> x <= last s;
  g_open : forall g ld, rds s !! g = Some (Rd ld false) -> ld ∈ devs s;
  g_inj : forall g g' ld, rds s !! g = Some (Rd ld false) -> rds s !! g' = Some (Rd ld false) -> g = g';
  g_live : forall g ld v, live (out s) g = Some (ld, v) -> rds s !! g = Some (Rd ld false) /\ cfgs s !! g = Some v;
  g_ask : forall g ld, rds s !! g = Some (Rd ld false) -> asked (out s) g = true;
  g_new : forall x, In x (new_ids (out s)) -> x <= last s;
  g_nodup : List.NoDup (new_ids (out s));
  g_ok : starts_ok (out s) }.

Record RunI (s : st) : Prop := {
  u_lds : lds s = devs s;
  u_row : forall g, rowok s g;
  u_inj : forall g g' x, owns s g = Some x -> owns s g' = Some x -> g = g';
  u_bnd : forall g x, owns s g = Some x -> x <= last s;
  u_own : forall x, x ∈ devs s -> exists g, owns s g = Some x }.

Record BootI (s : st) : Prop := {
  b_lds : lds s = devs s;
  b_fl : fl s = ∅;
  b_gs : forall g r, gs s !! g = Some r -> rds s !! g = Some (Rd (g_ld r) false) /\ g_st r = Active }.

Definition unop (s : st) (u : gset N) : Prop :=
  forall x, x ∈ u <-> x ∈ devs s /\ forall g r, gs s !! g = Some r -> g_ld r <> x.

Definition inv_md (s : st) : Prop :=
  match md s with
  | Off => fl s = ∅
  | BRds t =>
    BootI s /\ unop s (un s)
    /\ (forall g, g ∈ t -> gs s !! g = None)
    /\ (forall g r, rds s !! g = Some r -> g ∉ t -> gs s !! g = Some (Grp (r_ld r) Active false 0) /\ r_pend r = false)
    /\ (forall g r, gs s !! g = Some r -> g_lis r = false)
  | BCfgs t =>
    BootI s /\ unop s (un s)
    /\ (forall g, is_Some (rds s !! g) -> is_Some (gs s !! g))
    /\ (forall g r, gs s !! g = Some r -> g ∈ t -> g_lis r = false)
    /\ (forall g r, gs s !! g = Some r -> g ∉ t -> cfgs s !! g = ofc r)
    /\ (forall g, is_Some (cfgs s !! g) -> g ∉ t -> is_Some (gs s !! g))
  | BUnop t =>
    BootI s /\ unop s t
    /\ (forall g, is_Some (rds s !! g) -> is_Some (gs s !! g))
    /\ (forall g r, gs s !! g = Some r -> cfgs s !! g = ofc r)
    /\ (forall g, is_Some (cfgs s !! g) -> is_Some (gs s !! g))
  | Run => RunI s
  | Dead w => w = NoListener
  end.

Definition Inv (s : st) : Prop := Glob s /\ inv_md s.

Lemma init_inv : Inv init.
Proof.
  split.
  - constructor; cbn; try set_solver; try constructor.
  - cbn. constructor; cbn; try set_solver.
    intros g. unfold rowok. cbn. now rewrite !lookup_empty.
Qed.

Lemma row_mono f m r c a d d' l l' :
  row f m r c a d l -> (forall x, own f m = Some x -> (x ∈ d <-> x ∈ d')) -> row f m r c a d' l'.
Proof.
  intros H O. destruct f as [p|]; [destruct p|]; cbn in *; auto.
  all: try (pose proof (O ld eq_refl) as O1; naive_solver).
  all: try (destruct H as (x & -> & H); specialize (O _ eq_refl); naive_solver).
  destruct m as [x|]; auto. specialize (O _ eq_refl). naive_solver.
Qed.

Lemma run_upd s s' g : Glob s -> RunI s ->
  (forall k, k <> g -> fl s' !! k = fl s !! k /\ gs s' !! k = gs s !! k /\ rds s' !! k = rds s !! k
                       /\ cfgs s' !! k = cfgs s !! k /\ asked (out s') k = asked (out s) k) ->
  lds s' = devs s' -> rowok s' g -> last s <= last s' ->
  (forall x, owns s' g = Some x -> owns s g = Some x \/ last s < x <= last s') ->
  (forall x, owns s g <> Some x -> owns s' g <> Some x -> (x ∈ devs s' <-> x ∈ devs s)) ->
  (forall x, x ∈ devs s' -> owns s g = Some x -> owns s' g = Some x) ->
  RunI s'.
Proof.
  intros G R Hk Hl Hr Hlast H1 H2 H3.
  assert (K : forall k, k <> g -> owns s' k = owns s k).
  { intros k N. unfold owns. destruct (Hk k N) as (-> & -> & _). reflexivity. }
  assert (B : forall k x, owns s' k = Some x -> x <= last s').
  { intros k x O. destruct (decide (k = g)) as [->|N].
    - destruct (H1 x O) as [O'|[_ ?]]; auto. pose proof (u_bnd s R _ _ O'). lia.
    - rewrite K in O by auto. pose proof (u_bnd s R _ _ O). lia. }
  assert (D : forall k x, k <> g -> owns s k = Some x -> owns s' g <> Some x /\ owns s g <> Some x).
  { intros k x N O. assert (E : owns s g <> Some x) by (intros E; exact (N (u_inj s R _ _ _ O E))).
    split; auto. intros E'. destruct (H1 x E') as [?|[? _]]; [contradiction|].
    pose proof (u_bnd s R _ _ O). lia. }
  constructor; auto.
  - intros k. destruct (decide (k = g)) as [->|N]; auto.
    unfold rowok. destruct (Hk k N) as (-> & -> & -> & -> & ->).
    eapply row_mono; [exact (u_row s R k)|].
    intros x O. destruct (D k x N O) as [N1 N2]. symmetry. now apply H2.
  - intros k k' x O O'. destruct (decide (k = g)) as [->|N], (decide (k' = g)) as [->|N']; auto.
    + rewrite K in O' by auto. destruct (D _ _ N' O'). contradiction.
    + rewrite K in O by auto. destruct (D _ _ N O). contradiction.
    + rewrite K in O, O' by auto. exact (u_inj s R _ _ _ O O').
  - intros x X. destruct (decide (owns s' g = Some x)) as [|N']; [now exists g|].
    destruct (decide (owns s g = Some x)) as [E|N].
    + exfalso. apply N'. now apply H3.
    + apply H2 in X; auto. destruct (u_own s R x X) as [k O]. exists k.
      destruct (decide (k = g)) as [->|]; [contradiction|]. now rewrite K.
Qed.
