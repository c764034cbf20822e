(** fromImageBundle (cost_map_ros/src/lib/image_bundles.cpp:34-133) again, for yaml files
    with infinite numbers, NaN (".inf", ".nan") and numbers too large for their type. *)
From Coq Require Import ZArith QArith Qabs String List Bool.
From Verif Require Import Base Mat CostMap Converter Bundles NonFinite.
Import ListNotations.
Open Scope Z_scope.

(** The yaml file of a bundle, as in Bundles.v. *)
Record xyaml := XYaml
  { xy_frame : option string; xy_cx : option num; xy_cy : option num; xy_resn : option num;
    xy_nx : option Z; xy_ny : option Z; xy_layers : list (option string * option string) }.

(** Floats: 24 bits, infinite from 2^128 on. Numbers too small for a float are not
    modelled: the exponent is not bounded below. *)
Definition binary32 : Env := {| rnd := rnd32; bpol := BWrap |}.
Definition top32 : Q := inject_Z (2 ^ 128).

(** Node::as<float>: yaml-cpp knows the names of infinities and NaN; a number too
    large makes the stream fail and throws YAML::BadConversion ([BadFile], as in
    YamlTree.v). *)
Definition read_float (a : num) : res num :=
  match a with
  | Fin q => if Qle_bool top32 (Qabs (rnd32 q)) then Throw BadFile else Ok (Fin (rnd32 q))
  | _ => Ok a
  end.

Section XLoad.
Context {E : Env} {C : Cv}.
Context (top : Q) (conv : num -> res Z).

(** Node::as<double>; a finite number here is that of a double, except for its range. *)
Definition read_double (a : num) : res num :=
  match a with
  | Fin q => if Qle_bool top (Qabs q) then Throw BadFile else Ok a
  | _ => Ok a
  end.

(** image_bundles.cpp:79: a product of floats. *)
Definition float_length (r : num) (n : Z) : num := nmul (E := binary32) top32 r (Fin (rnd32 (inject_Z n))).

(** Calls that do not look at the geometry. *)
Definition on_cells (f : M cmap unit) : M xmap unit := fun X =>
  match f (xcells X) with
  | Ret _ m => Ret tt (XMap m (xlen X) (xres X) (xpos X))
  | Exn e m => Exn e (XMap m (xlen X) (xres X) (xpos X))
  | Flt t => Flt t
  end.

(** image_bundles.cpp:34-133 *)
Definition xload (y : xyaml) (files : list (string * png)) : M xmap unit :=
  match xy_frame y, xy_cx y, xy_cy y, xy_resn y, xy_nx y, xy_ny y with
  | Some f, Some cx, Some cy, Some r, Some nx, Some ny =>
      (r <- lift (read_float r) ;;
       cx <- lift (read_double cx) ;;
       cy <- lift (read_double cy) ;;
       ls <- lift (yaml_layers (xy_layers y) []) ;;
       xsetGeometry top conv (float_length r nx, float_length r ny) r (cx, cy) ;;;
       on_cells (setFrameId f ;;; resetTimestamp ;;; mfor ls (add_file files)))%mon
  | _, _, _, _, _, _ => throw LogicError
  end.

End XLoad.
