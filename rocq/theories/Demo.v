(** cost_map_demos/src/applications/inflations.cpp: a node that loads the example
    bundle, inflates and deflates its obstacles and shows the three layers. *)
From Coq Require Import ZArith QArith String List Bool.
From Verif Require Import Base Mat CostMap Inflation Converter Bundles.
Import ListNotations.
Open Scope Z_scope.

(** How main ends: with EXIT_FAILURE (line 51), or spinning (line 72) after the
    grids went out on obstacle_layer, inflation_layer and deflation_layer. *)
Inductive ending := Failed | Showing (obstacles inflated deflated : occ).

Section Demo.
Context {E : Env} {C : Cv} (F : fenv) (P : pqueue) (ex : Q -> Q).

(** inflations.cpp:37-39; the literals are double and are stored as float. *)
Definition demo_inscribed : Q := rnd32 (3#10).
Definition demo_radius : Q := rnd32 (8#10).
Definition demo_rate : Q := rnd32 5.

(** inflations.cpp:41. [ros_cost] does not fail for this rate (C76_costs). *)
Definition demo_computer (distance : Q) : Z :=
  match ros_cost F ex demo_inscribed demo_rate distance with Ok v => v | _ => 0 end.

(** inflations.cpp:30-73. All exceptions of the library are std::exceptions.
    Not modelled: the message that the loader publishes (C66), printing. *)
Definition inflations (files : list (string * bundle)) (plugins : list string) : res ending :=
  match load_image_bundle files plugins "cost_map_ros/example.yaml" with
  | Fault f => Fault f
  | Throw _ => Ok Failed
  | Ok (m, _) =>
      match inflate F P "obstacle_costs" "inflated_costs" demo_radius demo_computer (new_inflater P) m with
      | Flt f => Fault f
      | Exn _ _ => Ok Failed
      | Ret _ m1 =>
          match deflate false "inflated_costs" "deflated_costs" m1 with
          | Flt f => Fault f
          | Exn _ _ => Ok Failed
          | Ret _ m2 =>
              rbind (toOccupancyGrid m2 "obstacle_costs" []) (fun a =>
              rbind (toOccupancyGrid m2 "inflated_costs" []) (fun b =>
              rbind (toOccupancyGrid m2 "deflated_costs" []) (fun c => Ok (Showing a b c))))
          end
      end
  end.
End Demo.
