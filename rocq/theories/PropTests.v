(** Property C81: the assertions of the repository's unit tests, in doubles and
    whatever boundIndexToRange does. Each theorem is one TEST; the numbers are
    those of its EXPECT macros. *)
From Coq Require Import ZArith QArith Qreduction String List Bool Lia.
From Verif Require Import Base Mat GridMapMath GridIter CostMap Iterators Converter ConvertSpec Costmap2D CostmapDemo Samples.
Import ListNotations.
Open Scope Z_scope.

(** The double closest to a decimal number of the source. *)
Definition dec (q : Q) : Q := rne 53 q.

(** std::sqrt, to 60 binary places and then to double; exact on squares of integers. *)
Definition dsqrt (x : Q) : Q := rne 53 (Z.sqrt (Qnum x * Zpos (Qden x) * 4 ^ 60) # (Qden x * 2 ^ 60)).

Section Tests.
Variable p : bpolicy.
Local Instance tests_env : Env := binary64 p.
Open Scope mon_scope.

Definition basic_all : M cmap unit := fun m => setBasicLayers (layers m) m.

(** cost_map_core/test/cost_map.cpp:18-28 *)
Definition test_move : out cmap (bool * list region) :=
  (setGeometry (dec (81#10), dec (51#10)) 1 (0, 0)%Q ;;; add_value "layer" 0 ;;; basic_all ;;; move (-3#1, -2#1)%Q) (new_map []).

(** cost_map.cpp:53-64 *)
Definition aligned_map1 : cmap :=
  after (setGeometry (dec (51#10), dec (51#10)) 1 (0, 0)%Q ;;; add_value "zero" 0 ;;; add_value "one" 1 ;;; basic_all) (new_map []).
Definition aligned_map2 : cmap :=
  after (setGeometry (dec (31#10), dec (31#10)) 1 (2#1, 2#1)%Q ;;; add_value "one" 2 ;;; add_value "two" 3 ;;;
         setBasicLayers (layers aligned_map1)) (new_map []).

(** cost_map.cpp:83-98 *)
Definition unaligned_map1 : cmap :=
  after (setGeometry (dec (61#10), dec (61#10)) 1 (0, 0)%Q ;;; add_value "no_information" NO_INFORMATION ;;; add_value "one" 1 ;;;
         add_value "zero" 0 ;;; basic_all) (new_map []).
Definition unaligned_map2 : cmap :=
  after (setGeometry (dec (31#10), dec (31#10)) 1 (dec (32#10), dec (32#10)) ;;; add_value "no_information" 1 ;;; add_value "one" 1 ;;;
         add_value "two" 2 ;;; setBasicLayers (layers unaligned_map1)) (new_map []).

(** cost_map.cpp:113-123 *)
Definition copy_map1 : cmap :=
  after (setGeometry (dec (51#10), dec (51#10)) 1 (0, 0)%Q ;;; add_value "zero" 0 ;;; add_value "one" NO_INFORMATION ;;; basic_all) (new_map []).
Definition copy_map2 : cmap :=
  after (setGeometry (dec (31#10), dec (31#10)) 1 (2#1, 2#1)%Q ;;; add_value "one" 1 ;;; add_value "two" 2 ;;;
         setBasicLayers (layers copy_map1)) (new_map []).

(** The map of the tests of iterators. *)
Definition eight_by_five : cmap := after (setGeometry (8#1, 5#1)%Q 1 (0, 0)%Q) (new_map ["types"%string]).

(** test/submap_iterator.cpp:35-36 and 99-101 *)
Definition simple_map : cmap := after (setGeometry (dec (81#10), dec (51#10)) 1 (0, 0)%Q) (new_map ["type"%string]).
Definition circular_map : cmap := after (move (-3#1, -2#1)%Q) simple_map.

(** The iterator after k increments: past the end, its index, its submap index. *)
Definition sub_state (m : cmap) (a sn : idx) (k : nat) : bool * idx * idx :=
  let it := Nat.iter k sub_iter_next (sub_iter_new (size m) (start m) a sn) in (sb_past it, sb_index it, sb_sindex it).

(** cost_map_ros/src/tests/gtests/to_grid_map.cpp:17-20 *)
Definition grid_source : cmap :=
  after (setGeometry (3#1, 4#1)%Q 1 (0, 0)%Q ;;; add_value "free_space" FREE_SPACE ;;; add_value "no_information" NO_INFORMATION) (new_map []).

(** cost_map_demos/src/lib/from_ros_costmaps.cpp: a server of 5 m by 5 m, at the
    transform with translation [robot] (lines 19-25); updates are not modelled. *)
Definition server (origin robot : vec) : ros_costmap :=
  let k := Costmap2D (10, 10) (1#2) origin (repeat 0 100) in
  RosCostmap (match fill k with Ret _ k' => k' | _ => k end) "map" (Some robot) 7.
Definition window_at (c : ros_costmap) (g : vec) : cmap := after (fromCostmap2DROSAtRobotPose c g "obstacle_costs") (new_map []).
End Tests.

(** ** cost_map.cpp *)

Theorem C81_move : forall p, exists b rs m, test_move p = Ret (b, rs) m /\ start m = (3, 2) /\
  isValid m (0, 0) = Ok false /\ isValid m (3, 2) = Ok true /\ isValid m (2, 2) = Ok false /\ isValid m (3, 1) = Ok false /\
  isValid m (7, 4) = Ok true /\ map (fun r => (rstart r, rsize r)) rs = [((0, 0), (3, 5)); ((0, 0), (8, 2))].
Proof. intros []; do 3 eexists; (split; [vm_compute; reflexivity|conj_vm]). Qed.
Print Assumptions C81_move.

Theorem C81_aligned : forall p, let E := binary64 p in exists m,
  isInside (aligned_map1 p) (3#1, 3#1)%Q = false /\
  addDataFrom (aligned_map2 p) true true true [] (aligned_map1 p) = Ret true m /\
  exists_layer m "two" = true /\ isInside m (3#1, 3#1)%Q = true /\ (fst (len m) == 6)%Q /\ (snd (len m) == 6)%Q /\
  (fst (pos m) == 1#2)%Q /\ (snd (pos m) == 1#2)%Q /\
  atPosition m "one" (2#1, 2#1)%Q = Ok 2 /\ atPosition m "one" (-2#1, -2#1)%Q = Ok 1 /\ atPosition m "zero" (0, 0)%Q = Ok 0.
Proof. intros []; eexists; (split; [vm_compute; reflexivity|]; split; [vm_compute; reflexivity|conj_vm]). Qed.
Print Assumptions C81_aligned.

Theorem C81_not_aligned : forall p, let E := binary64 p in exists m,
  addDataFrom (unaligned_map2 p) true false false ["no_information"%string] (unaligned_map1 p) = Ret true m /\
  exists_layer m "two" = false /\ isInside m (4#1, 4#1)%Q = true /\ (fst (len m) == 8)%Q /\ (snd (len m) == 8)%Q /\
  (fst (pos m) == 1)%Q /\ (snd (pos m) == 1)%Q /\ isValid_layer m (snd (getIndex m (-2#1, -2#1)%Q)) "no_information" = Ok false /\
  atPosition m "one" (0, 0)%Q = Ok 1 /\ atPosition m "no_information" (3#1, 3#1)%Q = Ok 1.
Proof. intros []; eexists; (split; [vm_compute; reflexivity|conj_vm]). Qed.
Print Assumptions C81_not_aligned.

Theorem C81_copy : forall p, let E := binary64 p in exists m,
  addDataFrom (copy_map2 p) false false true [] (copy_map1 p) = Ret true m /\
  exists_layer m "two" = true /\ isInside m (3#1, 3#1)%Q = false /\ (fst (len m) == 5)%Q /\ (snd (len m) == 5)%Q /\
  (fst (pos m) == 0)%Q /\ (snd (pos m) == 0)%Q /\ atPosition m "one" (2#1, 2#1)%Q = Ok 1 /\
  isValid_layer m (snd (getIndex m (-2#1, -2#1)%Q)) "one" = Ok false /\ atPosition m "zero" (0, 0)%Q = Ok 0.
Proof. intros []; eexists; (split; [vm_compute; reflexivity|conj_vm]). Qed.
Print Assumptions C81_copy.

(** ** line_iterator.cpp. 30 steps are enough for the search along a line. *)

Theorem C81_lines : forall p, let E := binary64 p in let m := eight_by_five p in
  (* StartOutsideMap *)
  line_visits_positions dsqrt m (2#1, 2#1)%Q (0, 0)%Q 30 = Ok [(2, 0); (3, 1); (4, 2)] /\
  (* EndOutsideMap *)
  (exists c d, line_visits_positions dsqrt m (0, 0)%Q (9#1, 6#1)%Q 30 = Ok [(4, 2); (3, 1); (2, 1); c; d]) /\
  (* StartAndEndOutsideMap *)
  (exists cs, line_visits_positions dsqrt m (-7#1, -9#1)%Q (8#1, 8#1)%Q 30 = Ok ([(5, 4); (4, 3); (3, 2)] ++ cs) /\ (List.length cs <= 2)%nat).
Proof.
  intros []; (split; [vm_compute; reflexivity|]); (split; [do 2 eexists; vm_compute; reflexivity|]);
    eexists; (split; [vm_compute; reflexivity|cbn; lia]).
Qed.
Print Assumptions C81_lines.

(** StartAndEndOutsideMapWithoutIntersectingMap expects isPastEnd() to be true, but
    the constructor left the members it reads uninitialised. *)
Theorem C81_no_intersection_refuted : exists st en, forall p, let E := binary64 p in
  st = (-8#1, 8#1)%Q /\ en = (8#1, 8#1)%Q /\
  line_new_positions dsqrt (eight_by_five p) st en 30 = Ok None /\
  line_visits_positions dsqrt (eight_by_five p) st en 30 = Fault Uninit.
Proof. do 2 eexists. intros []; (split; [reflexivity|]); (split; [reflexivity|]); conj_vm. Qed.
Print Assumptions C81_no_intersection_refuted.

(** ** ellipse_iterator.cpp *)

Theorem C81_ellipse : forall p, let E := binary64 p in
  ellipse_visits dsqrt (eight_by_five p) (0, 0)%Q (8#1, 1)%Q 1 0 =
    Ok [(0, 2); (1, 2); (2, 2); (3, 2); (4, 2); (5, 2); (6, 2); (7, 2)].
Proof. intros []; vm_compute; reflexivity. Qed.
Print Assumptions C81_ellipse.

(** ** submap_iterator.cpp *)

Theorem C81_submap : forall p, size (simple_map p) = (8, 5) /\ start (simple_map p) = (0, 0) /\
  map (sub_state (simple_map p) (3, 1) (3, 2)) (seq 0 7) =
    [(false, (3, 1), (0, 0)); (false, (3, 2), (0, 1)); (false, (4, 1), (1, 0)); (false, (4, 2), (1, 1));
     (false, (5, 1), (2, 0)); (false, (5, 2), (2, 1)); (true, (5, 2), (2, 1))].
Proof. intros []; conj_vm. Qed.
Print Assumptions C81_submap.

Theorem C81_circular : forall p, size (circular_map p) = (8, 5) /\ start (circular_map p) = (3, 2) /\
  map (sub_state (circular_map p) (6, 3) (2, 4)) (seq 0 9) =
    [(false, (6, 3), (0, 0)); (false, (6, 4), (0, 1)); (false, (6, 0), (0, 2)); (false, (6, 1), (0, 3));
     (false, (7, 3), (1, 0)); (false, (7, 4), (1, 1)); (false, (7, 0), (1, 2)); (false, (7, 1), (1, 3)); (true, (7, 1), (1, 3))].
Proof. intros []; conj_vm. Qed.
Print Assumptions C81_circular.

(** ** polygon_iterator.cpp *)

Theorem C81_polygons : forall p, let E := binary64 p in let m := eight_by_five p in
  (* FullCover *)
  (exists cs, polygon_visits m [(-100#1, 100#1); (100#1, 100#1); (100#1, -100#1); (-100#1, -100#1)]%Q = Ok cs /\
     List.length cs = 40%nat /\ firstn 3 cs = [(0, 0); (0, 1); (0, 2)] /\ nth_error cs 39 = Some (7, 4)) /\
  (* Outside *)
  polygon_visits m [(99#1, 101#1); (101#1, 101#1); (101#1, 99#1); (99#1, 99#1)]%Q = Ok [] /\
  (* Square *)
  polygon_visits m [(-1#1, 3#2); (1, 3#2); (1, -3#2); (-1#1, -3#2)]%Q = Ok [(3, 1); (3, 2); (3, 3); (4, 1); (4, 2); (4, 3)] /\
  (* TopLeftTriangle *)
  (exists cs, polygon_visits m [(dec (-401#10), dec (206#10)); (dec (401#10), dec (204#10)); (dec (-401#10), dec (-206#10))] =
     Ok ((0, 0) :: (1, 0) :: cs)).
Proof.
  intros []; (split; [eexists; split; [vm_compute; reflexivity|conj_vm]|]); (split; [vm_compute; reflexivity|]); (split; [vm_compute; reflexivity|]);
    eexists; vm_compute; reflexivity.
Qed.
Print Assumptions C81_polygons.

(** ** to_grid_map.cpp *)

Theorem C81_grid : forall p, let E := binary64 p in exists g, toGridMap (grid_source p) (GMap "" 0 [] [] (0, 0)%Q 0 (0, 0)%Q (0, 0) (0, 0)) = Ret tt g /\
  m_size g = size (grid_source p) /\ List.length (m_layers g) = 2%nat /\
  grid_at g "free_space" (0, 0) = Some (Some 0%Q) /\ grid_at g "no_information" (0, 0) = Some (Some (100#1)).
Proof. intros []; eexists; (split; [vm_compute; reflexivity|conj_vm]). Qed.
Print Assumptions C81_grid.

(** ** cost_map_demos/src/test/rostests/from_ros_costmaps/from_ros_costmaps.cpp *)

Theorem C81_full_window : forall p, let E := binary64 p in let c := server p (0, 0)%Q (1, 1)%Q in
  exists m, fromCostmap2DROS c "obstacle_costs" (new_map []) = Ret true m /\
  frame m = c_frame c /\
  (fst (len m) == fmul (inject_Z (fst (k_size (c_map c)))) (k_resn (c_map c)))%Q /\
  (snd (len m) == fmul (inject_Z (snd (k_size (c_map c)))) (k_resn (c_map c)))%Q /\
  size m = k_size (c_map c) /\
  (fsub (fst (pos m)) (fmul (1#2) (fst (len m))) == fst (k_origin (c_map c)))%Q /\
  (fsub (snd (pos m)) (fmul (1#2) (snd (len m))) == snd (k_origin (c_map c)))%Q /\
  at_ m "obstacle_costs" (1, 9) = getCost (c_map c) 8 0 /\ getCost (c_map c) 8 0 = Ok 254.
Proof. intros []; eexists; (split; [vm_compute; reflexivity|conj_vm]). Qed.
Print Assumptions C81_full_window.

Theorem C81_centres : forall p,
  veq (pos (window_at p (server p (-6#1, 0)%Q (dec (-37#10), dec (24#10))) (3#1, 3#1)%Q)) (-35#10, 25#10)%Q /\
  veq (pos (window_at p (server p (-6#1, -6#1)%Q (dec (-35#10), dec (-35#10))) (3#1, 3#1)%Q)) (-35#10, -35#10)%Q /\
  veq (pos (window_at p (server p (-12#1, 0)%Q (dec (-97#10), dec (24#10))) (5#2, 5#2)%Q)) (-975#100, 225#100)%Q.
Proof. intros []; conj_vm. Qed.
Print Assumptions C81_centres.
