(** Image messages and image files as bytes: what addLayerFromROSImage makes of any
    sensor_msgs/Image, and what fromImageBundle makes of files with 8 or 16 bits
    per channel. Converter.v starts from decoded pixels. *)
From Coq Require Import ZArith QArith String List Bool Lia.
From Verif Require Import Base Mat GridMapMath GridIter CostMap Converter.
Import ListNotations.
Open Scope Z_scope.

(** sensor_msgs/Image without the header. *)
Record ros_image := RosImage
  { ri_enc : string; ri_height : Z; ri_width : Z; ri_big : bool; ri_step : Z; ri_data : list Z }.

(** A cv::Mat with 8 or 16 bits per channel and up to 4 channels, row by row. *)
Record cvmat := CvMat { v_bits : Z; v_channels : Z; v_rows : Z; v_cols : Z; v_px : list px }.

Section ImageBytes.
Context {E : Env} {C : Cv}.
Local Open Scope mon_scope.

(** sensor_msgs/image_encodings.h: numChannels, and bitDepth / 8 *)
Definition enc_channels (enc : string) : Z :=
  if String.eqb enc BGRA8 || String.eqb enc BGRA16 then 4
  else if String.eqb enc BGR8 || String.eqb enc BGR16 then 3 else 1.
Definition enc_bytes (enc : string) : Z :=
  match depth_of enc with Some d => if d =? 256 then 1 else 2 | None => 1 end.

Definition byte_at (r : ros_image) (o : Z) : res Z :=
  of_opt OutOfBounds (nth_error (ri_data r) (Z.to_nat o)).

(** A sample as a number: matFromImage swaps the bytes of messages in the other byte
    order, so that the number is what counts. *)
Definition sample_at (r : ros_image) (i j c : Z) : res Z :=
  let bd := enc_bytes (ri_enc r) in
  let o := i * ri_step r + (j * enc_channels (ri_enc r) + c) * bd in
  if bd =? 1 then byte_at r o
  else rbind (byte_at r o) (fun x => rbind (byte_at r (o + 1)) (fun y =>
       Ok (if ri_big r then x * 256 + y else y * 256 + x))).

(** A pixel; channels that the encoding does not have are 0. *)
Definition px_at (r : ros_image) (i j : Z) : res px :=
  let nc := enc_channels (ri_enc r) in
  rbind (sample_at r i j 0) (fun b =>
  rbind (if 3 <=? nc then sample_at r i j 1 else Ok 0) (fun g =>
  rbind (if 3 <=? nc then sample_at r i j 2 else Ok 0) (fun d =>
  rbind (if 4 <=? nc then sample_at r i j 3 else Ok 0) (fun a => Ok (Px b g d a))))).

(** cv_bridge: toCvCopy and matFromImage (not part of the repository), which throw
    when a row is longer than the step or the data has not height * step bytes.
    The products are unsigned there; messages of 2^32 bytes are not modelled. *)
Definition decode (r : ros_image) : res image :=
  match depth_of (ri_enc r) with
  | None => Ok (Image (ri_enc r) (ri_height r) (ri_width r) true [])
  | Some _ =>
      if (ri_step r <? ri_width r * enc_bytes (ri_enc r) * enc_channels (ri_enc r)) ||
         negb (ri_height r * ri_step r =? Z.of_nat (length (ri_data r)))
      then Ok (Image (ri_enc r) (ri_height r) (ri_width r) false [])
      else rbind (rmap (fun k => px_at r (k / ri_width r) (k mod ri_width r)) (zseq (ri_height r * ri_width r)))
             (fun ps => Ok (Image (ri_enc r) (ri_height r) (ri_width r) true ps))
  end.

(** converter.cpp:37-123 *)
Definition addLayerFromMessage (r : ros_image) (l : string) : M cmap bool :=
  im <- lift (decode r) ;; addLayerFromROSImage im l.

(** The bytes of a sample, a pixel and an image in memory. *)
Definition host_bytes (bits v : Z) : list Z :=
  if bits =? 16 then [fst (bytes16 v); snd (bytes16 v)] else [v].
Definition px_bytes (bits nc : Z) (p : px) : list Z :=
  flat_map (host_bytes bits) (firstn (Z.to_nat nc) [p_b p; p_g p; p_r p; p_a p]).

(** cv_bridge::CvImage::toImageMsg (not part of the repository): the encoding is not
    checked against the matrix. *)
Definition toImageMsg (enc : string) (a : cvmat) : ros_image :=
  RosImage enc (v_rows a) (v_cols a) (negb little) (v_cols a * (v_channels a * (v_bits a / 8)))
    (flat_map (px_bytes (v_bits a) (v_channels a)) (v_px a)).

(** image_bundles.cpp:94-107; the number of bits is not looked at (line 96). A file
    that does not exist reads as an empty matrix. *)
Definition file_message (f : option cvmat) : ros_image :=
  let a := match f with Some a => a | None => CvMat 8 1 0 0 [] end in
  toImageMsg (if v_channels a =? 3 then BGR8 else if v_channels a =? 4 then BGRA8 else MONO8) a.

(** image_bundles.cpp:86-118 *)
Definition add_matrix (f : option cvmat) (l : string) : M cmap unit :=
  addLayerFromMessage (file_message f) l ;;; ret tt.

End ImageBytes.
