(** * How sections may be used, and what they promise. *)
From Coq Require Import ZArith List Bool Arith.
From Verif Require Import CPGuardModel.
Import ListNotations.
Open Scope Z_scope.

(** The objects from outside: names given away, copies nobody has used yet, and for every
    thread the sections it has open, innermost first.  Nothing here knows about checkpoints. *)
Record uses := Uses { u_names : list nat; u_idle : list nat; u_open : nat -> list nat }.
Definition unused : uses := Uses [] [] (fun _ => []).
Definition on (t : nat) (v : list nat) (f : nat -> list nat) : nat -> list nat := fun u => if Nat.eqb u t then v else f u.
Definition without (g : nat) (l : list nat) : list nat := filter (fun x => negb (Nat.eqb x g)) l.

(** The discipline: objects are destroyed by the thread that opened them, innermost first;
    copies that were never used by anybody; nothing is assigned to. *)
Inductive fair : uses -> gop -> uses -> Prop :=
| fair_new n i o t g : ~ In g n -> fair (Uses n i o) (GNew t g) (Uses (g :: n) i (on t (g :: o t) o))
| fair_copy n i o g h : ~ In h n -> (In g i \/ exists t, In g (o t)) -> fair (Uses n i o) (GCopy g h) (Uses (h :: n) (h :: i) o)
| fair_use_idle n i o t g : In g i -> fair (Uses n i o) (GGet t g) (Uses n (without g i) (on t (g :: o t) o))
| fair_use n i o t u g : In g (o u) -> fair (Uses n i o) (GGet t g) (Uses n i o)
| fair_close n i o t g r : o t = g :: r -> fair (Uses n i o) (GDestroy t g) (Uses n i (on t r o))
| fair_drop n i o t g : In g i -> fair (Uses n i o) (GDestroy t g) (Uses n (without g i) o)
| fair_switch u : fair u GSwitch u
| fair_retire u c : fair u (GRetire c) u.

Inductive together (c : Z) : uses -> gst -> Prop :=
| tog_init : together c unused (ginit c)
| tog_step u s a u' s' : together c u s -> fair u a u' -> gstep s a = GOk s' -> together c u' s'.

(** The checkpoint of a live object. *)
Definition section_cp (s : gst) (g : nat) : option Z := option_map g_cp (gfind g (guards s)).
(** References held, per checkpoint. *)
Definition held (s : gst) (c : Z) : nat := count_occ Z.eq_dec (refs s) c.
Definition live_on (s : gst) (c : Z) : nat := length (filter (fun e => g_cp (snd e) =? c) (guards s)).
