(** cost_map_demos/src/lib/from_ros_costmaps.cpp and utilities.cpp, and
    src/applications/from_ros_costmaps.cpp: costmaps filled with stripes, converted
    and shown as occupancy grids. *)
From Coq Require Import ZArith QArith String List Bool.
From Verif Require Import Base Mat GridMapMath CostMap Converter Costmap2D.
Import ListNotations.
Open Scope Z_scope.

Section CostmapDemo.
Context {E : Env}.
Local Open Scope mon_scope.

(** Costmap2D::getIndex on unsigned int. *)
Definition u32 (z : Z) : Z := z mod 4294967296.
Definition cell_index (k : costmap2d) (x y : Z) : Z := u32 (y * fst (k_size k) + x).

(** Costmap2D::setCost and getCost; both index the array without a check. *)
Definition setCost (x y v : Z) : M costmap2d unit := fun k =>
  let j := cell_index k x y in
  if j <? Z.of_nat (length (k_char k))
  then Ret tt (Costmap2D (k_size k) (k_resn k) (k_origin k) (lupd (k_char k) (Z.to_nat j) v))
  else Flt OutOfBounds.
Definition getCost (k : costmap2d) (x y : Z) : res Z :=
  of_opt OutOfBounds (nth_error (k_char k) (Z.to_nat (cell_index k x y))).

(** lib/from_ros_costmaps.cpp:63-64: the cost of stripe x of n, a double converted to
    unsigned char. *)
Definition stripe (n x : Z) : res Z := to_uchar (fmul (fdiv (inject_Z (u32 (x + 1))) (inject_Z n)) 253).

(** lib/from_ros_costmaps.cpp:58-67, body of the loop over the rows. The
    subtractions are those of unsigned int. *)
Definition fill_row (y : Z) : M costmap2d unit := fun k =>
  let n := fst (k_size k) in
  (mfor (zseq (u32 (n - 2))) (fun x => v <- lift (stripe n x) ;; setCost x y v) ;;;
   setCost (u32 (n - 2)) y LETHAL_OBSTACLE ;;;
   setCost (u32 (n - 1)) y NO_INFORMATION) k.

(** lib/from_ros_costmaps.cpp:57-68. Not modelled: the parameters and the start of
    the costmap (lines 39-55), which give it its size, resolution and origin, and
    its updates, which clear the robot's footprint. *)
Definition fill : M costmap2d unit := fun k => mfor (zseq (snd (k_size k))) fill_row k.

(** lib/utilities.cpp:20-37, without the text: the numbers of each line. *)
Definition pretty_print (k : costmap2d) : res (list (list Z)) :=
  rmap (fun i => rmap (fun j => getCost k i j) (zseq (snd (k_size k)))) (zseq (fst (k_size k))).

(** applications/from_ros_costmaps.cpp:55-61: the result of the call is ignored. *)
Definition converted (convert : M cmap bool) : res cmap :=
  match convert (new_map []) with Ret _ m => Ok m | Exn e _ => Throw e | Flt f => Fault f end.

(** applications/from_ros_costmaps.cpp:74-83: getLayers()[0] is not checked; the
    message still has the data of the grid before. The grids published, and how it
    ends. *)
Fixpoint publish (ms : list cmap) (old : list Z) : list occ * res unit :=
  match ms with
  | [] => ([], Ok tt)
  | m :: ms =>
      match (match layers m with [] => Fault OutOfBounds | l :: _ => toOccupancyGrid m l old end) with
      | Ok o => let (os, e) := publish ms (o_data o) in (o :: os, e)
      | Throw e => ([], Throw e)
      | Fault f => ([], Fault f)
      end
  end.

(** applications/from_ros_costmaps.cpp:50-83; [c1] to [c5] are the costmaps in the
    order of lines 44-48. *)
Definition conversions (c1 c2 c3 c4 c5 : ros_costmap) : list (M cmap bool) :=
  let l := "obstacle_costs"%string in
  [fromCostmap2DROS c1 l; fromCostmap2DROS c2 l; fromCostmap2DROSAtRobotPose c3 (3, 3)%Q l;
   fromCostmap2DROSAtRobotPose c4 (3, 3)%Q l; fromCostmap2DROSAtRobotPose c5 (5#2, 5#2)%Q l].
Definition from_ros_costmaps (c1 c2 c3 c4 c5 : ros_costmap) : list occ * res unit :=
  match rmap converted (conversions c1 c2 c3 c4 c5) with
  | Ok ms => publish ms []
  | Throw e => ([], Throw e)
  | Fault f => ([], Fault f)
  end.

End CostmapDemo.
