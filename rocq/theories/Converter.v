(** cost_map_ros/src/lib/converter.cpp, function by function. *)
From Coq Require Import ZArith QArith Qround Qabs Qreduction String List Bool Lia.
From Verif Require Import Base Mat GridMapMath GridIter CostMap.
Import ListNotations.
Open Scope Z_scope.

(* ------------------------------------------------------------------ *)
(** ** Messages *)

(** std_msgs/UInt8MultiArray: layout.dim as (label, size) pairs, and data. The
    strides and layout.data_offset (0 in everything toMessage writes) are left
    out: the reading side uses neither. *)
Record marray := MArray { a_dims : list (string * Z); a_data : list Z }.

(** cost_map_msgs/msg/CostMap.msg with grid_map_msgs/GridMapInfo: stamp as
    (sec, nsec), frame_id, resolution, length_x/y, pose.position.x/y, layers,
    basic_layers, data, outer/inner_start_index. The constant members
    (position.z, orientation) are left out. *)
Record msg := Msg
  { g_stamp : Z * Z; g_frame : string; g_resn : Q; g_length : vec; g_position : vec;
    g_layers : list string; g_basic : list string; g_data : list marray; g_index : idx }.

(** ros::Time::fromNSec and toNSec (rostime, not part of the repository):
    seconds beyond 32 bits raise std::runtime_error. *)
Definition from_nsec (t : Z) : res (Z * Z) :=
  if t / 1000000000 <? 4294967296 then Ok (t / 1000000000, t mod 1000000000) else Throw RuntimeError.
Definition to_nsec (s : Z * Z) : Z := fst s * 1000000000 + snd s.

(** grid_map_ros/GridMapMsgHelpers: storageIndexNames *)
Definition column_index : string := "column_index".
Definition row_index : string := "row_index".

(** grid_map_ros/GridMapMsgHelpers: matrixEigenCopyToMultiArrayMessage for a
    column-major matrix. *)
Definition matrix_to_array (d : mat) : marray :=
  MArray [(column_index, mcols d); (row_index, mrows d)] (mcoef d).

(** grid_map_ros/GridMapMsgHelpers: multiArrayMessageCopyToMatrixEigen, with
    isRowMajor, getRows and getCols, called on the empty matrix that
    converter.cpp:199 declares. A row-major array is refused, which leaves that
    matrix empty; the caller ignores the returned bool. Reading past the end of
    the array is an out-of-bounds read. *)
Definition array_to_matrix (a : marray) : res mat :=
  match a_dims a with
  | d0 :: d1 :: _ =>
      if String.eqb (fst d0) row_index then Ok (Mat 0 0 [])
      else if Z.of_nat (length (a_data a)) <? snd d1 * snd d0 then Fault OutOfBounds
      else Ok (Mat (snd d1) (snd d0) (firstn (Z.to_nat (snd d1 * snd d0)) (a_data a)))
  | _ => Fault OutOfBounds
  end.

(** [for (x : l) r.push_back(f(x))] *)
Fixpoint rmap {A B} (f : A -> res B) (l : list A) : res (list B) :=
  match l with
  | [] => Ok []
  | x :: t => rbind (f x) (fun y => rbind (rmap f t) (fun ys => Ok (y :: ys)))
  end.

(** nav_msgs/OccupancyGrid: header, info.resolution (float32), info.width,
    info.height, info.origin.position.x/y, data. info.map_load_time repeats the
    stamp and is left out, as are the constant members. *)
Record occ := Occ
  { o_frame : string; o_stamp : Z * Z; o_resn : Q; o_width : Z; o_height : Z;
    o_origin : vec; o_data : list Z }.

(** grid_map::GridMap: as [cmap], with float layers; [None] is NaN. *)
Record gmap := GMap
  { m_frame : string; m_stamp : Z; m_data : list (string * (Z * Z * list (option Q)));
    m_layers : list string; m_len : vec; m_resn : Q; m_pos : vec; m_size : idx; m_start : idx }.

(** sensor_msgs/Image: encoding, height, width and the pixels, row by row. A
    pixel is (b, g, r, a); a mono image uses b, an image without alpha ignores
    a. [i_sound] tells whether cv_bridge accepts the message (it throws when
    step, data size and encoding do not fit together). *)
Record px := Px { p_b : Z; p_g : Z; p_r : Z; p_a : Z }.
Record image := Image
  { i_enc : string; i_height : Z; i_width : Z; i_sound : bool; i_px : list px }.

(** What OpenCV and the host contribute: conversion of a colour to gray, for 8
    and 16 bit, and the byte order of the host. *)
Class Cv := { gray8 : Z -> Z -> Z -> Z; gray16 : Z -> Z -> Z -> Z; little : bool }.

Section ConverterModel.
Context {E : Env}.
Local Open Scope mon_scope.

(** converter.cpp:154-184. The previous contents of the message are overwritten
    completely. outer_start_index and inner_start_index are uint16. *)
Definition toMessage (m : cmap) : res msg :=
  rbind (from_nsec (stamp m)) (fun s =>
  rbind (rmap (fun l => rbind (get m l) (fun d => Ok (matrix_to_array d))) (layers m)) (fun ds =>
  Ok (Msg s (frame m) (resn m) (len m) (pos m) (layers m) (basic m) ds
          (fst (start m) mod 65536, snd (start m) mod 65536)))).

(** converter.cpp:198-205, body of the loop *)
Definition add_array (la : string * marray) : M cmap unit :=
  d <- lift (array_to_matrix (snd la)) ;; add (fst la) d.

(** converter.cpp:186-210 *)
Definition fromMessage (g : msg) : M cmap bool :=
  setTimestamp (to_nsec (g_stamp g)) ;;;
  setFrameId (g_frame g) ;;;
  setGeometry (g_length g) (g_resn g) (g_position g) ;;;
  if negb (Nat.eqb (length (g_layers g)) (length (g_data g))) then ret false
  else
    mfor (combine (g_layers g) (g_data g)) add_array ;;;
    setBasicLayers (g_basic g) ;;;
    setStartIndex (g_index g) ;;;
    ret true.

(* ------------------------------------------------------------------ *)
(** ** Grid maps *)

(** grid_map::GridMap::setGeometry; resize leaves unspecified values, clearAll
    sets NaN in all of them. *)
Definition g_setGeometry (l : vec) (r : Q) (p : vec) : M gmap unit := fun g =>
  if negb (Qlt_bool 0 (fst l) && Qlt_bool 0 (snd l) && Qlt_bool 0 r) then Flt AssertFailed
  else
    let n := (Qround_away (fdiv (fst l) r), Qround_away (fdiv (snd l) r)) in
    Ret tt (GMap (m_frame g) (m_stamp g)
              (map (fun kv => (fst kv, (fst n, snd n, repeat None (Z.to_nat (fst n * snd n))))) (m_data g))
              (m_layers g)
              (fmul (inject_Z (fst n)) r, fmul (inject_Z (snd n)) r) r p n (0, 0)).

(** grid_map::GridMap::add(layer, data) *)
Definition g_add (l : string) (d : Z * Z * list (option Q)) : M gmap unit := fun g =>
  if negb ((fst (m_size g) =? fst (fst d)) && (snd (m_size g) =? snd (fst d))) then Flt AssertFailed
  else if amem (m_data g) l
  then Ret tt (GMap (m_frame g) (m_stamp g) (aset (m_data g) l d) (m_layers g)
                    (m_len g) (m_resn g) (m_pos g) (m_size g) (m_start g))
  else Ret tt (GMap (m_frame g) (m_stamp g) (ainsert (m_data g) l d) (m_layers g ++ [l])
                    (m_len g) (m_resn g) (m_pos g) (m_size g) (m_start g)).

(** converter.cpp:141: double arithmetic, stored in a float *)
Definition grid_value (v : Z) : Q := rnd32 (fdiv (fmul 100 (inject_Z v)) 255).

(** converter.cpp:135-145, body of the loop over the layers *)
Definition grid_layer (m : cmap) (l : string) : M gmap unit :=
  d <- lift (get m l) ;;
  g_add l (mrows d, mcols d, map (fun v => Some (grid_value v)) (mcoef d)).

(** converter.cpp:130-146 *)
Definition toGridMap (m : cmap) : M gmap unit :=
  g_setGeometry (len m) (resn m) (pos m) ;;;
  (fun g => Ret tt (GMap (frame m) (stamp m) (m_data g) (m_layers g)
                         (m_len g) (m_resn g) (m_pos g) (m_size g) (m_start g))) ;;;
  mfor (layers m) (grid_layer m).

(* ------------------------------------------------------------------ *)
(** ** Occupancy grids *)

(** converter.cpp:277-292: float arithmetic, then a conversion to int8. *)
Definition occ_value (v : Z) : Z :=
  if v =? NO_INFORMATION then -1
  else if v =? LETHAL_OBSTACLE then 100
  else if v =? INSCRIBED_OBSTACLE then 99
  else
    let value := rnd32 (rnd32 (inject_Z v - 0) / rnd32 (252 - 0)) in
    Qtrunc (rnd32 (0 + rnd32 (Qmin (Qmax 0 value) 1 * rnd32 (98 - 0)))).

(** converter.cpp:294-295 *)
Definition occ_write (n k v : Z) : M (list Z) unit := fun d =>
  if (0 <=? n - k - 1) && (n - k - 1 <? Z.of_nat (length d))
  then Ret tt (lupd d (Z.to_nat (n - k - 1)) v) else Flt OutOfBounds.

(** converter.cpp:274-296, body of the loop *)
Definition occ_cell (m : cmap) (l : string) (i : idx) : M (list Z) unit :=
  v <- lift (at_ m l i) ;;
  occ_write (fst (size m) * snd (size m)) (linear_index i (size m)) (occ_value v).

(** std::vector::resize *)
Definition vresize (n : Z) (d : list Z) : list Z :=
  firstn (Z.to_nat n) d ++ repeat 0 (Z.to_nat n - length d)%nat.

(** converter.cpp:245-297; [old] is the data of the message passed in. *)
Definition toOccupancyGrid (m : cmap) (l : string) (old : list Z) : res occ :=
  rbind (from_nsec (stamp m)) (fun s =>
  let n := fst (size m) * snd (size m) in
  rbind (map_visits (size m) (start m)) (fun vs =>
  match mfor vs (occ_cell m l) (vresize n old) with
  | Flt f => Fault f
  | Exn e _ => Throw e
  | Ret _ d =>
      Ok (Occ (frame m) s (rnd32 (resn m)) (fst (size m)) (snd (size m))
              (fsub (fst (pos m)) (fmul (1#2) (fst (len m))),
               fsub (snd (pos m)) (fmul (1#2) (snd (len m)))) d)
  end)).

(* ------------------------------------------------------------------ *)
(** ** Images *)
Section Images.
Context {C : Cv}.

Local Open Scope string_scope.
(** sensor_msgs/image_encodings.h *)
Definition BGRA8 := "bgra8".
Definition BGR8 := "bgr8".
Definition MONO8 := "mono8".
Definition BGRA16 := "bgra16".
Definition BGR16 := "bgr16".
Definition MONO16 := "mono16".
Local Close Scope string_scope.

(** converter.cpp:56-76: the depth for an encoding, if supported *)
Definition depth_of (enc : string) : option Z :=
  if String.eqb enc BGRA8 || String.eqb enc BGR8 || String.eqb enc MONO8 then Some 256
  else if String.eqb enc BGRA16 || String.eqb enc BGR16 || String.eqb enc MONO16 then Some 65536
  else None.

(** A 16-bit sample as OpenCV stores it: two bytes in host order. *)
Definition bytes16 (v : Z) : Z * Z :=
  if little then (v mod 256, v / 256) else (v / 256, v mod 256).

(** converter.cpp:100-101, 114-116: [(b[0] << 8) + b[1]] *)
Definition read16 (v : Z) : Z := fst (bytes16 v) * 256 + snd (bytes16 v).

(** cv_bridge::toCvCopy(image, MONO8 / MONO16): the gray value of a pixel. *)
Definition mono (enc : string) (p : px) : Z :=
  if String.eqb enc MONO8 || String.eqb enc MONO16 then p_b p
  else if String.eqb enc BGRA8 || String.eqb enc BGR8 then gray8 (p_b p) (p_g p) (p_r p)
  else gray16 (p_b p) (p_g p) (p_r p).

(** converter.cpp:119 *)
Definition image_value (depth gray : Z) : Z :=
  Qtrunc (fmul 254 (fsub 1 (fdiv (inject_Z gray) (inject_Z depth)))).

(** converter.cpp:90-119: the cost for a pixel, None when it is skipped *)
Definition px_cost (enc : string) (depth : Z) (p : px) : option Z :=
  if String.eqb enc BGRA8 && (p_a p <? depth / 2) then None
  else if String.eqb enc BGRA16 && (read16 (p_a p) <? depth / 2) then None
  else Some (image_value depth (if depth =? 256 then mono enc p else read16 (mono enc p))).

(** converter.cpp:88-121, body of the loop. cv::Mat::at is unchecked. *)
Definition image_cell (im : image) (depth : Z) (l : string) (i : idx) : M cmap unit := fun m =>
  if (0 <=? snd i) && (snd i <? i_width im) && (0 <=? fst i) && (fst i <? i_height im) then
    match nth_error (i_px im) (Z.to_nat (fst i * i_width im + snd i)) with
    | None => Flt OutOfBounds
    | Some p => match px_cost (i_enc im) depth p with
                | None => Ret tt m
                | Some v => at_set l i v m
                end
    end
  else Flt OutOfBounds.

(** converter.cpp:37-123. cost_map.add(layer_name) uses the default value
    NO_INFORMATION (cost_map.hpp:83). *)
Definition addLayerFromROSImage (im : image) (l : string) : M cmap bool :=
  match depth_of (i_enc im) with
  | None => ret false
  | Some depth =>
      if negb (i_sound im) then ret false
      else
        add_value l NO_INFORMATION ;;;
        m <- get_st ;;
        if negb ((fst (size m) =? i_height im) && (snd (size m) =? i_width im)) then ret false
        else
          vs <- lift (map_visits (size m) (start m)) ;;
          mfor vs (image_cell im depth l) ;;;
          ret true
  end.

End Images.

(* ------------------------------------------------------------------ *)
(** ** The cost map service *)

(** converter.cpp:314-326. The conversion from costmap_2d (lines 231-243, all in
    grid_map_costmap_2d) is a parameter. Result: (returned bool, response). *)
Definition service_callback (convert : vec -> M cmap bool) (length : vec) : res (bool * msg) :=
  match convert length (new_map []) with
  | Flt f => Fault f
  | Exn e _ => Throw e
  | Ret _ m => rbind (toMessage m) (fun g => Ok (true, g))
  end.

End ConverterModel.
