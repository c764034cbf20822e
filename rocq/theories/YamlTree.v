(** fromImageBundle reading a yaml document of any shape
    (cost_map_ros/src/lib/image_bundles.cpp:34-80). *)
From Coq Require Import ZArith QArith String List Bool.
From Verif Require Import Base Mat CostMap Converter Bundles.
Import ListNotations.
Open Scope Z_scope.

(** A YAML::Node. Only keys that are scalars are modelled. *)
Inductive node :=
| Null
| Scalar (s : string)
| Seq (l : list node)
| Map (l : list (string * node)).

(** What YAML::LoadFile finds: no readable file, a syntax error, a document. *)
Inductive doc := NoFile | Malformed | Doc (n : node).

(** Node::as<float>, as<double> and as<unsigned int> of a scalar; [None] is a failed
    conversion. Infinities and NaN are not modelled. *)
Class Scan := { as_float : string -> option Q; as_double : string -> option Q; as_uint : string -> option Z }.

(** Node::operator[] with a string, as in yaml-cpp 0.5 and 0.6. [Ok None] is an
    undefined node; a scalar throws YAML::BadSubscript. All exceptions of yaml-cpp
    other than ParserException are [BadFile] here: none is a std::logic_error. *)
Definition child (k : string) (n : node) : res (option node) :=
  match n with
  | Map l => Ok (aget l k)
  | Scalar _ => Throw BadFile
  | _ => Ok None
  end.

(** Node::as<std::string>; anything but a scalar throws YAML::BadConversion. *)
Definition as_string (n : option node) : res string :=
  match n with Some (Scalar s) => Ok s | _ => Throw BadFile end.
Definition as_with {A} (f : string -> option A) (n : option node) : res A :=
  match n with
  | Some (Scalar s) => match f s with Some v => Ok v | None => Throw BadFile end
  | _ => Throw BadFile
  end.

Definition required_keys : list string :=
  ["frame_id"; "centre_x"; "centre_y"; "resolution"; "number_of_cells_x"; "number_of_cells_y"]%string.

Section YamlTree.
Context {E : Env} {C : Cv} {X : Scan}.
Local Open Scope mon_scope.

(** image_bundles.cpp:46-53 *)
Fixpoint check_keys (ks : list string) (n : node) : res unit :=
  match ks with
  | [] => Ok tt
  | k :: t => rbind (child k n) (fun x => match x with None => Throw LogicError | Some _ => check_keys t n end)
  end.

(** Node::size and Node::operator[] with an unsigned int: of a map, the value whose
    key converts to the number. *)
Definition node_size (n : node) : nat :=
  match n with Seq l => length l | Map l => length l | _ => O end.
Definition item (n : node) (k : nat) : option node :=
  match n with
  | Seq l => nth_error l k
  | Map l => match find (fun e => match as_uint (fst e) with Some z => z =? Z.of_nat k | None => false end) l with
             | Some e => Some (snd e)
             | None => None
             end
  | _ => None
  end.

(** image_bundles.cpp:61-71, body of the loop. Subscripts of an undefined node are
    undefined. *)
Definition read_layer (x : option node) (acc : list (string * string)) : res (list (string * string)) :=
  let get k := match x with None => Ok None | Some n => child k n end in
  rbind (get "layer_name"%string) (fun a => match a with None => Throw LogicError | Some _ =>
  rbind (get "layer_data"%string) (fun b => match b with None => Throw LogicError | Some _ =>
  rbind (as_string a) (fun k => rbind (as_string b) (fun v => Ok (map_insert k v acc))) end) end).

(** image_bundles.cpp:60: the loop, with [count] turns left *)
Fixpoint read_layers (n : node) (count index : nat) (acc : list (string * string)) : res (list (string * string)) :=
  match count with
  | O => Ok acc
  | S c => rbind (read_layer (item n index) acc) (read_layers n c (S index))
  end.

(** image_bundles.cpp:34-133 *)
Definition fromImageBundle_doc (d : doc) (files : list (string * png)) : M cmap unit :=
  match d with
  | NoFile => throw BadFile
  | Malformed => throw LogicError
  | Doc n =>
      let value k := match child k n with Ok x => x | _ => None end in
      lift (check_keys required_keys n) ;;;
      f <- lift (as_string (value "frame_id"%string)) ;;
      r <- lift (as_with as_float (value "resolution"%string)) ;;
      nx <- lift (as_with as_uint (value "number_of_cells_x"%string)) ;;
      ny <- lift (as_with as_uint (value "number_of_cells_y"%string)) ;;
      cx <- lift (as_with as_double (value "centre_x"%string)) ;;
      cy <- lift (as_with as_double (value "centre_y"%string)) ;;
      ls <- lift (match value "layers"%string with
                  | None => Ok []
                  | Some l => read_layers l (node_size l) 0 []
                  end) ;;
      let r := rnd32 r in
      setGeometry (rnd32 (r * rnd32 (inject_Z nx)), rnd32 (r * rnd32 (inject_Z ny))) r (cx, cy) ;;;
      setFrameId f ;;;
      resetTimestamp ;;;
      mfor ls (add_file files)
  end.

End YamlTree.
