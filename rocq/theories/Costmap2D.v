(** Conversion from costmap_2d (cost_map_ros/src/lib/converter.cpp:216-243). The
    lines in /repo only call grid_map::Costmap2DConverter (package
    grid_map_costmap_2d, header Costmap2DConverter.hpp), which in turn uses
    costmap_2d::Costmap2D. Neither is part of /repo. Both are modelled from
    memory of their published sources, which were not at hand to check against;
    for the converter with its default translation table, taken to keep the costs.
    What the tests in cost_map_demos/src/test/rostests/from_ros_costmaps assert
    about these calls is computed from the model in C73_case and C74_case. *)
From Coq Require Import ZArith QArith Qround String List Bool.
From Verif Require Import Base Mat GridMapMath GridIter CostMap Converter.
Import ListNotations.
Open Scope Z_scope.

(** costmap_2d::Costmap2D: size_x_, size_y_, resolution_, origin_x_, origin_y_ (the
    corner with the least coordinates) and costmap_, the row of least y first. *)
Record costmap2d := Costmap2D
  { k_size : idx; k_resn : Q; k_origin : vec; k_char : list Z }.

(** costmap_2d::Costmap2DROS: the costmap, getGlobalFrameID(), and what
    getRobotPose() gives if it succeeds; with the time of the call. The lock on
    the costmap means that none of them changes during the call. *)
Record ros_costmap := RosCostmap
  { c_map : costmap2d; c_frame : string; c_pose : option vec; c_now : Z }.

Section Costmap2DModel.
Context {E : Env}.
Local Open Scope mon_scope.

(** Costmap2D::worldToMap. Not modelled: quotients of 2^31 and more, for which the
    conversion to int is undefined. *)
Definition worldToMap (k : costmap2d) (w : vec) : option idx :=
  if Qlt_bool (fst w) (fst (k_origin k)) || Qlt_bool (snd w) (snd (k_origin k)) then None
  else
    let mx := Qtrunc (fdiv (fsub (fst w) (fst (k_origin k))) (k_resn k)) in
    let my := Qtrunc (fdiv (fsub (snd w) (snd (k_origin k))) (k_resn k)) in
    if (mx <? fst (k_size k)) && (my <? snd (k_size k)) then Some (mx, my) else None.

(** Costmap2D::copyMapRegion: memcpy of [n1] rows of [n0] cells from (x, y) on. *)
Definition copyMapRegion (k : costmap2d) (a n : idx) : list Z :=
  flat_map (fun y => firstn (Z.to_nat (fst n))
                       (skipn (Z.to_nat ((snd a + y) * fst (k_size k) + fst a)) (k_char k)))
           (zseq (snd n)).

(** Costmap2D::copyCostmapWindow into another costmap. *)
Definition copyCostmapWindow (k : costmap2d) (o s : vec) : option costmap2d :=
  match worldToMap k o with
  | None => None
  | Some a =>
      match worldToMap k (fadd (fst o) (fst s), fadd (snd o) (snd s)) with
      | None => None
      | Some b =>
          let n := (fst b - fst a, snd b - snd a) in
          Some (Costmap2D n (k_resn k) o (copyMapRegion k a n))
      end
  end.

(** Costmap2DConverter::initializeFromCostmap2D *)
Definition initializeFromCostmap2D (c : ros_costmap) : M cmap unit :=
  let k := c_map c in
  let l := (fmul (inject_Z (fst (k_size k))) (k_resn k), fmul (inject_Z (snd (k_size k))) (k_resn k)) in
  let p := (fadd (fst (k_origin k)) (fmul (1#2) (fst l)), fadd (snd (k_origin k)) (fmul (1#2) (snd l))) in
  setGeometry l (k_resn k) p ;;;
  setFrameId (c_frame c).

(** The loop of addLayerFromCostmap2D: coefficient i, in storage order, is the
    cost number nCells - 1 - i. *)
Definition reversed_costs (k : costmap2d) (cells : Z) : res (list Z) :=
  rmap (fun i => of_opt OutOfBounds (nth_error (k_char k) (Z.to_nat (cells - 1 - i)))) (zseq cells).

(** Costmap2DConverter::addLayerFromCostmap2D *)
Definition addLayerFromCostmap2D (k : costmap2d) (l : string) : M cmap bool :=
  m <- get_st ;;
  if negb (idx_eqb (size m) (k_size k)) then ret false
  else if negb (idx_eqb (start m) (0, 0)) then ret false
  else
    d <- lift (reversed_costs k (fst (size m) * snd (size m))) ;;
    add l (Mat (fst (k_size k)) (snd (k_size k)) d) ;;;
    ret true.

(** The centre of the new map along one axis, in initializeFromCostmap2DAtRobotPose:
    the middle of the robot's cell if the number of cells is odd, else the vertex
    next to the robot. The number of cells is truncated to an int here, whereas
    setGeometry rounds it. *)
Definition window_centre (o r length x : Q) : Q :=
  let c := fdiv (fsub x o) r in
  if Z.odd (Qtrunc (fdiv length r))
  then fadd (fadd (fmul (inject_Z (Qfloor c)) r) (fdiv r 2)) o
  else fadd (fmul (inject_Z (Qround_away c)) r) o.

(** Costmap2DConverter::initializeFromCostmap2DAtRobotPose *)
Definition initializeFromCostmap2DAtRobotPose (c : ros_costmap) (length : vec) : M cmap bool :=
  match c_pose c with
  | None => ret false
  | Some x =>
      let k := c_map c in
      setFrameId (c_frame c) ;;;
      setTimestamp (c_now c) ;;;
      setGeometry length (k_resn k)
        (window_centre (fst (k_origin k)) (k_resn k) (fst length) (fst x),
         window_centre (snd (k_origin k)) (k_resn k) (snd length) (snd x)) ;;;
      ret true
  end.

(** Costmap2DConverter::addLayerFromCostmap2DAtRobotPose. The result of the inner
    addLayerFromCostmap2D is ignored. *)
Definition addLayerFromCostmap2DAtRobotPose (c : ros_costmap) (l : string) : M cmap bool :=
  m <- get_st ;;
  let k := c_map c in
  if negb (Qeq_bool (resn m) (k_resn k)) then ret false
  else
    match copyCostmapWindow k (fsub (fst (pos m)) (fdiv (fst (len m)) 2),
                               fsub (snd (pos m)) (fdiv (snd (len m)) 2)) (len m) with
    | None => ret false
    | Some w => addLayerFromCostmap2D w l ;;; ret true
    end.

(** converter.cpp:216-227 *)
Definition fromCostmap2DROS (c : ros_costmap) (l : string) : M cmap bool :=
  initializeFromCostmap2D c ;;;
  b <- addLayerFromCostmap2D (c_map c) l ;;
  if negb b then ret false else ret true.

(** converter.cpp:229-243 *)
Definition fromCostmap2DROSAtRobotPose (c : ros_costmap) (geometry : vec) (l : string) : M cmap bool :=
  b <- initializeFromCostmap2DAtRobotPose c geometry ;;
  if negb b then ret false
  else
    b <- addLayerFromCostmap2DAtRobotPose c l ;;
    if negb b then ret false else ret true.

(** converter.cpp:314-326, with the conversion of line 321. *)
Definition costmap_service (c : ros_costmap) (length : vec) : res (bool * msg) :=
  service_callback (fun g => fromCostmap2DROSAtRobotPose c g "obstacle_costs") length.

End Costmap2DModel.
