(** CostMapIterator and SubmapIterator: the two iterators that only depend on
    the size and start index of a map. *)
From Coq Require Import ZArith QArith List Bool Lia.
From Verif Require Import Base GridMapMath.
Import ListNotations.
Open Scope Z_scope.

(** Driver shared by all iterators: [for (it; !it.isPastEnd(); ++it)], returning
    the list of dereferenced values. *)
Section Driver.
Context {I A : Type} (past : I -> bool) (cur : I -> A) (next : I -> I).
Fixpoint run (fuel : nat) (it : I) : res (list A) :=
  match fuel with
  | O => Fault OutOfFuel
  | S f => if past it then Ok []
           else rbind (run f (next it)) (fun l => Ok (cur it :: l))
  end.
End Driver.

Section GridIter.
Context {E : Env}.

(** cost_map_core/include/cost_map_core/iterators/costmap_iterator.hpp,
    private members size_, startIndex_, endIndex_, index_, isPastEnd_. *)
Record map_iter := MapIter
  { mi_size : idx; mi_start : idx; mi_end : idx; mi_index : idx; mi_past : bool }.

(** cost_map_iterator.cpp:14-22. With the wrapping boundIndexToRange a size of
    0 is an integer division by zero. *)
Definition map_iter_new (n s : idx) : res map_iter :=
  match bpol with
  | BWrap =>
      if (fst n =? 0) || (snd n =? 0) then Fault DivByZero
      else Ok (MapIter n s (bound1 (fst s + fst n - 1) (fst n),
                            bound1 (snd s + snd n - 1) (snd n)) s false)
  | BClamp =>
      Ok (MapIter n s (bound1 (fst s + fst n - 1) (fst n),
                       bound1 (snd s + snd n - 1) (snd n)) s false)
  end.

(** cost_map_iterator.cpp:43-46 *)
Definition map_iter_ne (a b : map_iter) : bool := negb (idx_eqb (mi_index a) (mi_index b)).

(** cost_map_iterator.cpp:53-56 *)
Definition map_iter_unwrapped (it : map_iter) : idx :=
  unwrap_index (mi_index it) (mi_size it) (mi_start it).

(** cost_map_iterator.cpp:58-62 *)
Definition map_iter_next (it : map_iter) : map_iter :=
  let '(ok, i) := increment_index (mi_index it) (mi_size it) (mi_start it) in
  MapIter (mi_size it) (mi_start it) (mi_end it) i (negb ok).

(** cost_map_iterator.cpp:64-69 *)
Definition map_iter_end (it : map_iter) : map_iter :=
  MapIter (mi_size it) (mi_start it) (mi_end it) (mi_end it) (mi_past it).

(** Fuel that always suffices for a loop over an n0 x n1 window. *)
Definition grid_fuel (n : idx) : nat := S (S (Z.to_nat (fst n * snd n))).

(** The indices visited by [for (CostMapIterator it(map); !it.isPastEnd(); ++it)],
    with the unwrapped index of each. *)
Definition map_visits2 (n s : idx) : res (list (idx * idx)) :=
  rbind (map_iter_new n s)
    (run mi_past (fun it => (mi_index it, map_iter_unwrapped it)) map_iter_next (grid_fuel n)).

Definition map_visits (n s : idx) : res (list idx) :=
  rbind (map_iter_new n s) (run mi_past mi_index map_iter_next (grid_fuel n)).

(** The loop a C++ programmer might write with end():
    [for (it(map); it != it.end(); ++it)]. *)
Definition map_visits_end (n s : idx) : res (list idx) :=
  rbind (map_iter_new n s)
    (run (fun it => negb (map_iter_ne it (map_iter_end it))) mi_index map_iter_next (grid_fuel n)).

(** cost_map_core/include/cost_map_core/iterators/submap_iterator.hpp *)
Record sub_iter := SubIter
  { sb_size : idx; sb_start : idx; sb_ssize : idx; sb_sstart : idx;
    sb_index : idx; sb_sindex : idx; sb_past : bool }.

(** submap_iterator.cpp:30-40 *)
Definition sub_iter_new (n s : idx) (sstart ssize : idx) : sub_iter :=
  SubIter n s ssize sstart sstart (0, 0) false.

(** submap_iterator.cpp:81-86 *)
Definition sub_iter_next (it : sub_iter) : sub_iter :=
  let '(ok, si, i) := increment_submap (sb_sindex it) (sb_index it) (sb_sstart it)
                        (sb_ssize it) (sb_size it) (sb_start it) in
  SubIter (sb_size it) (sb_start it) (sb_ssize it) (sb_sstart it) i si (negb ok).

(** (buffer index, submap index) pairs visited by a SubmapIterator loop. *)
Definition sub_visits (n s sstart ssize : idx) : res (list (idx * idx)) :=
  run sb_past (fun it => (sb_index it, sb_sindex it)) sub_iter_next
    (grid_fuel ssize) (sub_iter_new n s sstart ssize).

End GridIter.
