(** Loops whose body changes the map they iterate over. The iterators copy what
    they need when they are made and never look at the map again. *)
From Coq Require Import ZArith QArith String List Bool.
From Verif Require Import Base Mat GridMapMath GridIter CostMap Iterators.
Import ListNotations.
Open Scope Z_scope.

(** [for (it; !it.isPastEnd(); ++it) body of the current index], where the body works on the map. *)
Section Driver.
Context {I A : Type} (past : I -> bool) (cur : I -> res A) (next : I -> res I).
Context (body : A -> M cmap unit).
Fixpoint runB (fuel : nat) (it : I) : M cmap unit := fun m =>
  match fuel with
  | O => Flt OutOfFuel
  | S f =>
      if past it then Ret tt m
      else match cur it with
           | Ok a => match body a m with
                     | Ret _ m' => match next it with
                                   | Ok it' => runB f it' m'
                                   | Throw e => Exn e m'
                                   | Fault t => Flt t
                                   end
                     | Exn e m' => Exn e m'
                     | Flt t => Flt t
                     end
           | Throw e => Exn e m
           | Fault t => Flt t
           end
  end.

(** The constructor, then the loop. *)
Definition loopB (it : res I) (fuel : nat) : M cmap unit := fun m =>
  match it with Ok i => runB fuel i m | Throw e => Exn e m | Fault t => Flt t end.
End Driver.

Section Loops.
Context {E : Env} (body : idx -> M cmap unit).

(** CostMapIterator copies size and start index: cost_map_iterator.cpp:14-22. *)
Definition map_loop : M cmap unit := fun m =>
  loopB mi_past (fun it => Ok (mi_index it)) (fun it => Ok (map_iter_next it)) body
    (map_iter_new (size m) (start m)) (grid_fuel (size m)) m.

(** The filtered iterators copy length, position, resolution, size and start index:
    circle_iterator.cpp:16-31, ellipse_iterator.cpp:17-34, polygon_iterator.cpp:16-29. *)
Definition filt_loop (ins : idx -> res bool) (n s sstart ssize : idx) : M cmap unit :=
  loopB sb_past (fun it => Ok (sb_index it)) (filt_next ins) body
    (filt_new ins n s sstart ssize) (grid_fuel ssize).

Definition circle_loop (c : vec) (R : Q) : M cmap unit := fun m =>
  let '(s, n) := circle_window m c R in
  filt_loop (circle_inside m c R) (size m) (start m) s n m.

Definition ellipse_loop (sqr : Q -> Q) (c L : vec) (cs sn : Q) : M cmap unit := fun m =>
  let '(s, n) := ellipse_window sqr m c L cs sn in
  filt_loop (ellipse_inside m c L cs sn) (size m) (start m) s n m.

Definition polygon_loop (vs : list vec) : M cmap unit := fun m =>
  match polygon_window m vs with
  | Ok (s, n) => filt_loop (polygon_inside m vs) (size m) (start m) s n m
  | Throw e => Exn e m
  | Fault t => Flt t
  end.

(** SubmapIterator copies size and start index: submap_iterator.cpp:30-40. The body
    gets the index of the map and that of the submap. *)
Definition sub_loop (body2 : idx * idx -> M cmap unit) (sstart ssize : idx) : M cmap unit := fun m =>
  runB sb_past (fun it => Ok (sb_index it, sb_sindex it)) (fun it => Ok (sub_iter_next it)) body2
    (grid_fuel ssize) (sub_iter_new (size m) (start m) sstart ssize) m.

(** LineIterator between indices: line_iterator.cpp:26-29, 78-91. *)
Definition line_loop (a b : idx) : M cmap unit :=
  let it := line_new a b in
  runB line_past (fun it => Ok (li_index it)) (fun it => Ok (line_next it)) body (Z.to_nat (li_ncells it + 1)) it.

(** SpiralIterator copies length, position, resolution and size and looks up its centre
    once: spiral_iterator.cpp:17-31. *)
Definition spiral_loop (c : vec) (R : Q) (fuel : nat) : M cmap unit := fun m =>
  loopB spiral_past spiral_cur (spiral_next m c R) body (spiral_new m c R) fuel m.
End Loops.
