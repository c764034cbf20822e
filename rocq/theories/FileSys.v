(** Image bundles on a file system: which files cost_map_ros/src/lib/image_bundles.cpp
    reads and writes, and what happens if they cannot be written. *)
From Coq Require Import ZArith QArith Ascii String List Bool.
From Verif Require Import Base Mat CostMap Converter Bundles.
Import ListNotations.
Open Scope Z_scope.

(** The contents of a file: yaml or png. *)
Inductive content := FYaml (y : yaml) | FPng (p : png).

(** The files by their paths. Paths are compared as strings: two ways of
    writing the path of one file ("a/../b", links) are two files here. *)
Definition files := string -> option content.

(** The part before the last "/". *)
Fixpoint before_last (s : string) : option string :=
  match s with
  | EmptyString => None
  | String c t =>
      match before_last t with
      | Some p => Some (String c p)
      | None => if Ascii.eqb c "/" then Some EmptyString else None
      end
  end.

(** Without the slashes at its end. *)
Fixpoint strip (s : string) : string :=
  match s with
  | EmptyString => EmptyString
  | String c t =>
      match strip t with
      | EmptyString => if Ascii.eqb c "/" then EmptyString else String c EmptyString
      | t' => String c t'
      end
  end.

(** boost::filesystem::path::parent_path (image_bundles.cpp:88 and 179); the
    network names "//host" are not modelled. *)
Definition parent_path (s : string) : string :=
  match before_last s with
  | None => EmptyString
  | Some p => match strip p with EmptyString => "/"%string | d => d end
  end.

Definition starts_slash (s : string) : bool :=
  match s with String c _ => Ascii.eqb c "/" | EmptyString => false end.

Fixpoint ends_slash (s : string) : bool :=
  match s with
  | EmptyString => false
  | String c EmptyString => Ascii.eqb c "/"
  | String _ t => ends_slash t
  end.

(** operator/ of boost::filesystem, version 3 (image_bundles.cpp:91 and 180):
    a separator is added unless one is there. *)
Definition join (p q : string) : string :=
  match p with
  | EmptyString => q
  | _ => if starts_slash q || ends_slash p then (p ++ q)%string else (p ++ "/" ++ q)%string
  end.

Section FileModel.
Context {E : Env} {C : Cv} {T : Text}.
Local Open Scope mon_scope.

(** Writing a file. [W] are the paths that can be opened for writing: the
    folder exists, is writable and so on. Else nothing happens, and neither the
    state of the std::ofstream (image_bundles.cpp:155-157) nor the result of
    cv::imwrite (line 181) is looked at. (Writes that fail half way, as on a
    full disk, are not modelled.) *)
Definition write (W : string -> bool) (path : string) (c : content) : M files unit := fun fs =>
  Ret tt (if W path then (fun q => if String.eqb q path then Some c else fs q) else fs).

(** image_bundles.cpp:135-183 *)
Definition saveBundle (W : string -> bool) (f : string) (m : cmap) : M files unit :=
  write W f (FYaml (bundle_yaml m)) ;;;
  mfor (layers m) (fun l =>
    x <- lift (layer_file m l) ;;
    write W (join (parent_path f) (fst x)) (FPng (snd x))).

(** image_bundles.cpp:86-95: the images that the loop finds, by the names that
    the yaml file gives them. cv::imread gives an empty matrix for a file that
    is not an image. *)
Definition images (fs : files) (f : string) (y : yaml) : list (string * png) :=
  flat_map (fun e => match snd e with
                     | None => []
                     | Some n => match fs (join (parent_path f) n) with Some (FPng p) => [(n, p)] | _ => [] end
                     end) (y_layers y).

(** image_bundles.cpp:34-133. A file that is not yaml makes YAML::LoadFile
    throw, line 74 turns that into std::logic_error. *)
Definition loadBundle (fs : files) (f : string) : M cmap unit :=
  match fs f with
  | None => fromImageBundle None
  | Some (FPng _) => throw LogicError
  | Some (FYaml y) => fromImageBundle (Some (Bundle y (images fs f y)))
  end.

(** image_bundles.cpp:227-239: the state is the member finished and the files. *)
Definition save_to (W : string -> bool) (f : string) (g : msg) : M (bool * files) unit := fun s =>
  if fst s then Ret tt s
  else match fromMessage g (new_map []) with
       | Flt t => Flt t
       | Exn e _ => Exn e s
       | Ret false _ => Ret tt s
       | Ret true m => match saveBundle W f m (snd s) with
                       | Flt t => Flt t
                       | Exn e fs => Exn e (false, fs)
                       | Ret _ fs => Ret tt (true, fs)
                       end
       end.

End FileModel.
