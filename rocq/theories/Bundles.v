(** cost_map_ros/src/lib/image_bundles.cpp, cost_map_ros/src/lib/utilities.cpp,
    cost_map_visualisations/src/lib/occupancy_grid.cpp and
    cost_map_visualisations/src/applications/service_relay.cpp. *)
From Coq Require Import ZArith QArith Qround Qabs Qreduction Ascii String List Bool Lia.
From Verif Require Import Base Mat GridMapMath GridIter CostMap Converter.
Import ListNotations.
Open Scope Z_scope.

(** The yaml file of a bundle; [None] where a key is missing. Values of the
    wrong type: YamlTree.v. *)
Record yaml := Yaml
  { y_frame : option string; y_cx : option Q; y_cy : option Q; y_resn : option Q;
    y_nx : option Z; y_ny : option Z; y_layers : list (option string * option string) }.

(** A png file with 8-bit channels: number of channels, rows, columns, pixels.
    (Files with 16-bit channels are not modelled; see the TODO in line 96.) *)
Record png := Png { f_channels : Z; f_rows : Z; f_cols : Z; f_px : list px }.

(** A bundle on disk: the yaml and the image files next to it. *)
Record bundle := Bundle { b_yaml : yaml; b_files : list (string * png) }.

(** Printing of a double into a yaml file followed by reading it back as a
    double: the identity in yaml-cpp releases that print max_digits10 digits. *)
Class Text := { text : Q -> Q }.

(** std::string::find(sub) != npos *)
Fixpoint find_sub (sub s : string) : bool :=
  String.prefix sub s ||
  match s with EmptyString => false | String _ t => find_sub sub t end.

(** std::string::find("/"), with the parts before and after *)
Fixpoint split_slash (s : string) : option (string * string) :=
  match s with
  | EmptyString => None
  | String c t =>
      if Ascii.eqb c "/"%char then Some (EmptyString, t)
      else match split_slash t with
           | None => None
           | Some (a, b) => Some (String c a, b)
           end
  end.

(** utilities.cpp:22-58; [plugins] is what ros::package::getPlugins returns. *)
Definition resolveResourceName (plugins : list string) (name : string) : res string :=
  match split_slash name with
  | None => Throw InvalidArgument
  | Some (package, rest) =>
      match find (fun f => find_sub package f && find_sub rest f) plugins with
      | Some f => Ok f
      | None => Throw RuntimeError
      end
  end.

(** std::map<std::string, std::string>::insert: kept sorted by key, and a key
    that is already present keeps its value. *)
Fixpoint map_insert {A} (k : string) (v : A) (l : list (string * A)) : list (string * A) :=
  match l with
  | [] => [(k, v)]
  | (k', v') :: t =>
      match String.compare k k' with
      | Lt => (k, v) :: l
      | Eq => l
      | Gt => (k', v') :: map_insert k v t
      end
  end.

Section BundleModel.
Context {E : Env} {C : Cv} {T : Text}.
Local Open Scope mon_scope.

(** image_bundles.cpp:58-72 *)
Fixpoint yaml_layers (l : list (option string * option string)) (acc : list (string * string)) :
  res (list (string * string)) :=
  match l with
  | [] => Ok acc
  | (Some k, Some v) :: t => yaml_layers t (map_insert k v acc)
  | _ => Throw LogicError
  end.

(** image_bundles.cpp:94-107: the image message for a file. A file that does
    not exist reads as an empty cv::Mat, which has one channel. *)
Definition file_image (f : option png) : image :=
  match f with
  | None => Image MONO8 0 0 true []
  | Some p => Image (if f_channels p =? 3 then BGR8 else if f_channels p =? 4 then BGRA8 else MONO8)
                    (f_rows p) (f_cols p) true (f_px p)
  end.

(** image_bundles.cpp:86-118, body of the loop; the result of
    addLayerFromROSImage is ignored. *)
Definition add_file (files : list (string * png)) (p : string * string) : M cmap unit :=
  addLayerFromROSImage (file_image (aget files (snd p))) (fst p) ;;; ret tt.

(** image_bundles.cpp:34-133; [None] is a file that cannot be opened. The
    resolution is read as a float, and its products with the cell counts are
    float products. *)
Definition fromImageBundle (b : option bundle) : M cmap unit :=
  match b with
  | None => throw BadFile
  | Some b =>
      let y := b_yaml b in
      match y_frame y, y_cx y, y_cy y, y_resn y, y_nx y, y_ny y with
      | Some f, Some cx, Some cy, Some r, Some nx, Some ny =>
          ls <- lift (yaml_layers (y_layers y) []) ;;
          let r := rnd32 r in
          setGeometry (rnd32 (r * rnd32 (inject_Z nx)), rnd32 (r * rnd32 (inject_Z ny))) r (cx, cy) ;;;
          setFrameId f ;;;
          resetTimestamp ;;;
          mfor ls (add_file (b_files b))
      | _, _, _, _, _, _ => throw LogicError
      end
  end.

(** image_bundles.cpp:172 *)
Definition flipped (v : Z) : Z :=
  Qtrunc (fmul 255 (fsub 1 (fdiv (inject_Z v) 255))).

(** image_bundles.cpp:168-176 *)
Definition saved_px (v : Z) : px :=
  Px (flipped v) (flipped v) (flipped v) (if v =? NO_INFORMATION then 0 else 255).

(** image_bundles.cpp:147-152 and 179-180: the file of a layer *)
Definition png_name (l : string) : string := (l ++ ".png")%string.

(** image_bundles.cpp:165-178. A matrix whose size is not the map's makes the
    code access pixels or coefficients that do not exist. *)
Definition layer_png (m : cmap) (d : mat) : res png :=
  if negb ((fst (size m) =? mrows d) && (snd (size m) =? mcols d)) then Fault OutOfBounds
  else
    rbind (rmap (fun k => of_opt OutOfBounds (mget d (k / mcols d) (k mod mcols d))) (zseq (mrows d * mcols d)))
      (fun vs => Ok (Png 4 (mrows d) (mcols d) (map saved_px vs))).

(** image_bundles.cpp:160-182, body of the loop *)
Definition layer_file (m : cmap) (l : string) : res (string * png) :=
  rbind (get m l) (fun d => rbind (layer_png m d) (fun p => Ok (png_name l, p))).

(** image_bundles.cpp:139-153; line 142 stores the x coordinate twice. *)
Definition bundle_yaml (m : cmap) : yaml :=
  Yaml (Some (frame m)) (Some (text (fst (pos m)))) (Some (text (fst (pos m)))) (Some (text (resn m)))
       (Some (fst (size m))) (Some (snd (size m)))
       (map (fun l => (Some l, Some (png_name l))) (layers m)).

(** image_bundles.cpp:135-183: the bundle written. A file written twice (two
    layers with the same name) would be overwritten: [aget] finds the first, so
    the list is reversed. Failures of the file system, layer names that are not
    file names and maps without cells are not modelled. *)
Definition toImageBundle (m : cmap) : res bundle :=
  rbind (rmap (layer_file m) (layers m)) (fun fs => Ok (Bundle (bundle_yaml m) (rev fs))).

(** image_bundles.cpp:189-214, the constructor: [files] maps the existing yaml
    files to their bundles. Result: the map, and the message published. *)
Definition load_image_bundle (files : list (string * bundle)) (plugins : list string) (location : string) :
  res (cmap * msg) :=
  rbind (if amem files location then Ok location else resolveResourceName plugins location) (fun f =>
  match fromImageBundle (aget files f) (new_map []) with
  | Flt t => Fault t
  | Exn e _ => Throw e
  | Ret _ m => rbind (toMessage m) (fun g => Ok (m, g))
  end).

(** SaveImageBundle: the members finished and the bundles written so far. *)
Record saver := Saver { s_finished : bool; s_written : list bundle }.

(** image_bundles.cpp:227-239; the mutex makes callbacks run one by one. *)
Definition save_callback (g : msg) : M saver unit := fun s =>
  if s_finished s then Ret tt s
  else match fromMessage g (new_map []) with
       | Flt f => Flt f
       | Exn e _ => Exn e s
       | Ret false _ => Ret tt s
       | Ret true m => match toImageBundle m with
                       | Fault f => Flt f
                       | Throw e => Exn e s
                       | Ok b => Ret tt (Saver true (s_written s ++ [b]))
                       end
       end.

(* ------------------------------------------------------------------ *)
(** ** Visualisation *)

(** cost_map::OccupancyGrid: the keys of publishers_, the advertisements made
    and the messages published, both in order. *)
Record relay := Relay
  { r_publishers : list string; r_advertised : list string; r_published : list (string * occ) }.

(** occupancy_grid.cpp:31-45, body of the loop. getNumSubscribers() >= 0 holds
    always (it is unsigned), so every layer is converted. *)
Definition relay_layer (g : msg) (l : string) : M relay unit := fun r =>
  let r1 := if smem l (r_publishers r) then r
            else Relay (r_publishers r ++ [l]) (r_advertised r ++ [l]) (r_published r) in
  match fromMessage g (new_map []) with
  | Flt f => Flt f
  | Exn e _ => Exn e r1
  | Ret _ m =>
      match toOccupancyGrid m l [] with
      | Fault f => Flt f
      | Throw e => Exn e r1
      | Ok o => Ret tt (Relay (r_publishers r1) (r_advertised r1) (r_published r1 ++ [(l, o)]))
      end
  end.

(** occupancy_grid.cpp:30-46 *)
Definition relay_callback (g : msg) : M relay unit := mfor (g_layers g) (relay_layer g).

(** service_relay.cpp: the variable layer_name and the grids published. *)
Record srelay := SRelay { v_layer : string; v_published : list occ }.

(** service_relay.cpp:59-75, one turn of the loop; [None] is a failed call. *)
Definition srelay_turn (response : option msg) : M srelay unit := fun s =>
  match response with
  | None => Ret tt s
  | Some g =>
      match fromMessage g (new_map []) with
      | Flt f => Flt f
      | Exn e _ => Exn e s
      | Ret _ m =>
          let l := match layers m with [x] => x | _ => v_layer s end in
          match toOccupancyGrid m l [] with
          | Fault f => Flt f
          | Throw e => Exn e (SRelay l (v_published s))
          | Ok o => Ret tt (SRelay l (v_published s ++ [o]))
          end
      end
  end.

End BundleModel.
