(** Specification vocabulary for inflation. *)
From Coq Require Import ZArith QArith String List Bool Permutation.
From Verif Require Import Base Mat CostMap Inflation Spec.
Import ListNotations.
Open Scope Z_scope.

(** What the standard promises of a priority queue ordered by distance: pop
    removes an element of least distance. [pq_items] is the content of a queue
    and [pq_wf] the states that push and pop lead to. *)
Record pq_spec (P : pqueue) :=
  { pq_items : pq P -> list qcell;
    pq_wf : pq P -> Prop;
    pq_wf_empty : pq_wf (pq_empty P);
    pq_items_empty : pq_items (pq_empty P) = [];
    pq_wf_push : forall c q, pq_wf q -> pq_wf (pq_push P c q);
    pq_items_push : forall c q, pq_wf q -> Permutation (pq_items (pq_push P c q)) (c :: pq_items q);
    pq_pop_none : forall q, pq_wf q -> pq_pop P q = None -> pq_items q = [];
    pq_pop_some : forall c q q', pq_wf q -> pq_pop P q = Some (c, q') ->
      pq_wf q' /\ Permutation (pq_items q) (c :: pq_items q') /\
      forall x, In x (pq_items q') -> (q_dist c <= q_dist x)%Q }.
Arguments pq_items {P} _ _.
Arguments pq_wf {P} _ _.

(** Squared Euclidean, and Manhattan distance of two cells. *)
Definition d2 (a b : idx) : Z :=
  (fst a - fst b) * (fst a - fst b) + (snd a - snd b) * (snd a - snd b).
Definition d1 (a b : idx) : Z := Z.abs (fst a - fst b) + Z.abs (snd a - snd b).

(** The distance table tells apart distances up to k from larger ones, for each
    whole k up to r. *)
Definition dist_ok (t : Z -> Z -> Q) (r : Z) : Prop :=
  forall a b k, 0 <= a <= r + 1 -> 0 <= b <= r + 1 -> 0 <= k <= r ->
    ((t a b <= inject_Z k)%Q <-> a * a + b * b <= k * k).

(** Entry of a table for a pair of cells. *)
Definition at_offset {A} (t : Z -> Z -> A) (a b : idx) : A :=
  t (Z.abs (fst a - fst b)) (Z.abs (snd a - snd b)).

(** A cell of value [old] in reach of an obstacle that asks for [cost]: an
    unknown cell takes over inscribed and lethal costs only. *)
Definition inflated (old cost : Z) : Z :=
  if Z.eq_dec old unknown then if Z_le_gt_dec inscribed cost then cost else unknown
  else Z.max old cost.

(** The costs an inflation computer [comp] assigns to the offsets of a map with
    resolution [q], with the roundings of the distance in metres. *)
Definition cost_table (F : fenv) (q : Q) (comp : Q -> Z) : Z -> Z -> Z :=
  fun i j => comp (f32 F (f32 F q * hyp F i j)).

(** The arguments in force in a call with radius r, after a last change of the
    radius with the arguments [x]. *)
Definition in_force (x : option (Z * Q * (Q -> Z))) (r : Z) (q : Q) (comp : Q -> Z) : Q * (Q -> Z) :=
  match x with
  | Some (r0, q0, comp0) => if r0 =? r then (q0, comp0) else (q, comp)
  | None => (q, comp)
  end.

(** Inflate objects: new, or used for some calls; with the radius, resolution and
    computer of the last call that changed the radius in cells. *)
Inductive used {E : Env} (F : fenv) (P : pqueue) : inflater P -> option (Z * Q * (Q -> Z)) -> Prop :=
| used_new : used F P (new_inflater P) None
| used_call o x ls ld rad comp m o' m' r : used F P o x ->
    cell_radius rad m = Ok r -> r < 2 ^ 32 - 2 -> inflate F P ls ld rad comp o m = Ret o' m' ->
    used F P o' (Some (r, fst (in_force x r (resn m) comp), snd (in_force x r (resn m) comp))).
