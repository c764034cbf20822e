(** cost_map_core/src/lib/cost_map.cpp, function by function. *)
From Coq Require Import ZArith QArith Qround Qabs Qreduction String List Bool Lia.
From Verif Require Import Base Mat GridMapMath GridIter.
Import ListNotations.
Open Scope Z_scope.

(** cost_map_core/src/lib/common.cpp:21-24 *)
Definition NO_INFORMATION : Z := 255.
Definition LETHAL_OBSTACLE : Z := 254.
Definition INSCRIBED_OBSTACLE : Z := 253.
Definition FREE_SPACE : Z := 0.

(** cost_map_core/include/cost_map_core/cost_map.hpp: private members frameId_,
    timestamp_ (nanoseconds), data_, layers_, basicLayers_, length_,
    resolution_, position_, size_, startIndex_. *)
Record cmap := CMap
  { frame : string; stamp : Z;
    data : list (string * mat); layers : list string; basic : list string;
    len : vec; resn : Q; pos : vec; size : idx; start : idx }.

Definition set_data (m : cmap) d := CMap (frame m) (stamp m) d (layers m) (basic m) (len m) (resn m) (pos m) (size m) (start m).
Definition set_layers (m : cmap) l := CMap (frame m) (stamp m) (data m) l (basic m) (len m) (resn m) (pos m) (size m) (start m).
Definition set_basic (m : cmap) b := CMap (frame m) (stamp m) (data m) (layers m) b (len m) (resn m) (pos m) (size m) (start m).
Definition set_pos (m : cmap) p := CMap (frame m) (stamp m) (data m) (layers m) (basic m) (len m) (resn m) p (size m) (start m).
Definition set_start (m : cmap) s := CMap (frame m) (stamp m) (data m) (layers m) (basic m) (len m) (resn m) (pos m) (size m) s.
Definition set_stamp (m : cmap) t := CMap (frame m) t (data m) (layers m) (basic m) (len m) (resn m) (pos m) (size m) (start m).
Definition set_frame (m : cmap) f := CMap f (stamp m) (data m) (layers m) (basic m) (len m) (resn m) (pos m) (size m) (start m).
Definition set_size (m : cmap) n := CMap (frame m) (stamp m) (data m) (layers m) (basic m) (len m) (resn m) (pos m) n (start m).
Definition set_geo (m : cmap) l r p s := CMap (frame m) (stamp m) (data m) (layers m) (basic m) l r p (size m) s.

Section CostMapModel.
Context {E : Env}.
Local Open Scope mon_scope.

Definition modify (f : cmap -> cmap) : M cmap unit := fun m => Ret tt (f m).

(* ------------------------------------------------------------------ *)
(** ** Construction and layers *)

(** cost_map.cpp:19-32. Inserting a repeated name has no effect on data_, but
    layers_ keeps the repetition. *)
Definition new_map (names : list string) : cmap :=
  CMap EmptyString 0
       (fold_left (fun d l => ainsert d l (Mat 0 0 [])) names [])
       names [] (0, 0)%Q 0%Q (0, 0)%Q (0, 0) (0, 0).

(** cost_map.cpp:647-653. The coefficients after Eigen's resize() are
    unspecified; the model uses 0. The only caller clears the layers next. *)
Definition resize (n : idx) : M cmap unit :=
  modify (fun m => set_size (set_data m
            (map (fun kv => (fst kv, mconst (fst n) (snd n) 0)) (data m))) n).

(** cost_map.cpp:575-580 *)
Definition clearAll : M cmap unit :=
  modify (fun m => set_data m
            (map (fun kv => (fst kv, mconst (mrows (snd kv)) (mcols (snd kv)) NO_INFORMATION)) (data m))).

(** cost_map.cpp:43-62. (With NDEBUG the assertions vanish, see Ndebug.v.) *)
Definition setGeometry (l : vec) (r : Q) (p : vec) : M cmap unit :=
  if negb (Qlt_bool 0 (fst l) && Qlt_bool 0 (snd l) && Qlt_bool 0 r) then abort AssertFailed
  else
    let n := (Qround_away (fdiv (fst l) r), Qround_away (fdiv (snd l) r)) in
    resize n ;;; clearAll ;;;
    modify (fun m => set_geo m (fmul (inject_Z (fst (size m))) r, fmul (inject_Z (snd (size m))) r) r p (0, 0)).

(** cost_map.cpp:69-77, 505-528, 540-547; cost_map.hpp:76 *)
Definition setBasicLayers (b : list string) : M cmap unit := modify (fun m => set_basic m b).
Definition setTimestamp (t : Z) : M cmap unit := modify (fun m => set_stamp m t).
Definition resetTimestamp : M cmap unit := modify (fun m => set_stamp m 0).
Definition setFrameId (f : string) : M cmap unit := modify (fun m => set_frame m f).
Definition setStartIndex (s : idx) : M cmap unit := modify (fun m => set_start m s).
Definition setPosition (p : vec) : M cmap unit := modify (fun m => set_pos m p).

(** cost_map.cpp:107-110 *)
Definition exists_layer (m : cmap) (l : string) : bool := amem (data m) l.

(** cost_map.cpp:79-85 *)
Definition hasSameLayers (m other : cmap) : bool :=
  forallb (exists_layer other) (layers m).

(** cost_map.cpp:92-105 *)
Definition add (l : string) (d : mat) : M cmap unit := fun m =>
  if negb ((fst (size m) =? mrows d) && (snd (size m) =? mcols d)) then Flt AssertFailed
  else if exists_layer m l
       then Ret tt (set_data m (aset (data m) l d))
       else Ret tt (set_layers (set_data m (ainsert (data m) l d)) (layers m ++ [l])).

(** cost_map.cpp:87-90 *)
Definition add_value (l : string) (v : Z) : M cmap unit := fun m =>
  add l (mconst (fst (size m)) (snd (size m)) v) m.

(** cost_map.cpp:112-138 *)
Definition get (m : cmap) (l : string) : res mat :=
  match aget (data m) l with Some d => Ok d | None => Throw OutOfRange end.

(** cost_map.cpp:140-154 *)
Definition erase (l : string) : M cmap bool := fun m =>
  if negb (amem (data m) l) then Ret false m
  else
    let m1 := set_data m (adel (data m) l) in
    if negb (smem l (layers m1)) then Ret false m1
    else Ret true (set_basic (set_layers m1 (remove_first l (layers m1)))
                             (remove_first l (basic m1))).

(* ------------------------------------------------------------------ *)
(** ** Cells *)

(** cost_map.cpp:205-212 (const) *)
Definition at_ (m : cmap) (l : string) (i : idx) : res Z :=
  match aget (data m) l with
  | None => Throw OutOfRange
  | Some d => of_opt OutOfBounds (mget d (fst i) (snd i))
  end.

(** cost_map.cpp:196-203: [at(l, i) = v] through the returned reference. *)
Definition at_set (l : string) (i : idx) (v : Z) : M cmap unit := fun m =>
  match aget (data m) l with
  | None => Exn OutOfRange m
  | Some d => match mset d (fst i) (snd i) v with
              | None => Flt OutOfBounds
              | Some d' => Ret tt (set_data m (aset (data m) l d'))
              end
  end.

(** cost_map.cpp:214-227 *)
Definition getIndex (m : cmap) (p : vec) : bool * idx :=
  index_from_position p (len m) (pos m) (resn m) (size m) (start m).
Definition getPosition (m : cmap) (i : idx) : option vec :=
  position_from_index i (len m) (pos m) (resn m) (size m) (start m).
Definition isInside (m : cmap) (p : vec) : bool := position_within_map p (len m) (pos m).

(** cost_map.cpp:161-168, reading and writing through the reference *)
Definition atPosition (m : cmap) (l : string) (p : vec) : res Z :=
  let '(ok, i) := getIndex m p in if ok then at_ m l i else Throw OutOfRange.
Definition atPosition_set (l : string) (p : vec) (v : Z) : M cmap unit := fun m =>
  let '(ok, i) := getIndex m p in if ok then at_set l i v m else Exn OutOfRange m.

(** cost_map.cpp:234-237 *)
Definition isValid_layer (m : cmap) (i : idx) (l : string) : res bool :=
  rbind (at_ m l i) (fun v => Ok (negb (v =? NO_INFORMATION))).

(** cost_map.cpp:239-246 *)
Fixpoint isValid_loop (m : cmap) (i : idx) (ls : list string) : res bool :=
  match ls with
  | [] => Ok true
  | l :: t => rbind (at_ m l i) (fun v => if v =? NO_INFORMATION then Ok false
                                          else isValid_loop m i t)
  end.
Definition isValid_layers (m : cmap) (i : idx) (ls : list string) : res bool :=
  match ls with [] => Ok false | _ => isValid_loop m i ls end.

(** cost_map.cpp:229-232 *)
Definition isValid (m : cmap) (i : idx) : res bool := isValid_layers m i (basic m).

(** cost_map.cpp:248-257. The result is None when the function returns false.
    When getPosition fails the C++ copies an uninitialised position. *)
Definition getPosition3 (m : cmap) (l : string) (i : idx) : res (option (vec * Z)) :=
  rbind (isValid_layer m i l) (fun ok =>
  if negb ok then Ok None
  else match getPosition m i with
       | None => Fault Uninit
       | Some p => rbind (at_ m l i) (fun v => Ok (Some (p, v)))
       end).

(** cost_map.cpp:259-271 *)
Definition getVector (m : cmap) (prefix : string) (i : idx) : res (option (Z * Z * Z)) :=
  let lx := (prefix ++ "x")%string in
  let ly := (prefix ++ "y")%string in
  let lz := (prefix ++ "z")%string in
  rbind (isValid_layers m i [lx; ly; lz]) (fun ok =>
  if negb ok then Ok None
  else rbind (at_ m lx i) (fun x => rbind (at_ m ly i) (fun y => rbind (at_ m lz i) (fun z =>
       Ok (Some (x, y, z)))))).

(** cost_map.cpp:602-645. None when the function returns false. [lin] stands for
    lines 632-643: the double computed from the four points, their costs and the
    position, by way of Eigen's column-pivoting QR decomposition. It is converted to
    float. *)
Definition interpolated (lin : list vec -> list Z -> vec -> Q) (m : cmap) (l : string) (p : vec) : res (option Q) :=
  let i0 := snd (getIndex m p) in
  match getPosition m i0 with
  | None => Fault Uninit
  | Some p0 =>
      let i1 := if Qle_bool (fst p0) (fst p) then (fst i0 - 1, snd i0) else (fst i0 + 1, snd i0) in
      match getPosition m i1 with
      | None => Ok None
      | Some p1 =>
          let i2 := if Qle_bool (snd p0) (snd p) then (fst i0, snd i0 - 1) else (fst i0, snd i0 + 1) in
          match getPosition m i2 with
          | None => Ok None
          | Some p2 =>
              let i3 := (fst i1, snd i2) in
              match getPosition m i3 with
              | None => Ok None
              | Some p3 =>
                  rbind (at_ m l i0) (fun b0 => rbind (at_ m l i1) (fun b1 =>
                  rbind (at_ m l i2) (fun b2 => rbind (at_ m l i3) (fun b3 =>
                  Ok (Some (rnd32 (lin [p0; p1; p2; p3] [b0; b1; b2; b3] p)))))))
              end
          end
      end
  end.

(** Conversion of a floating value to unsigned char: undefined when the
    truncated value is not representable. *)
Definition to_uchar (q : Q) : res Z :=
  let v := Qtrunc q in if (0 <=? v) && (v <=? 255) then Ok v else Fault BadCast.

(** grid_map::InterpolationMethods *)
Inductive interp_method := INTER_LINEAR | INTER_NEAREST | INTER_OTHER.

(** cost_map.cpp:170-194 *)
Definition atPosition_interp (lin : list vec -> list Z -> vec -> Q) (m : cmap) (l : string) (p : vec) (k : interp_method) : res Z :=
  match k with
  | INTER_OTHER => Throw RuntimeError
  | INTER_NEAREST => atPosition m l p
  | INTER_LINEAR =>
      rbind (interpolated lin m l p) (fun o =>
      match o with Some v => to_uchar v | None => atPosition m l p end)
  end.

(* ------------------------------------------------------------------ *)
(** ** Clearing *)

(** cost_map.cpp:559-566 *)
Definition clear (l : string) : M cmap unit := fun m =>
  match aget (data m) l with
  | None => Exn OutOfRange m
  | Some d => Ret tt (set_data m (aset (data m) l (mconst (mrows d) (mcols d) NO_INFORMATION)))
  end.

(** cost_map.cpp:568-573 *)
Definition clearBasic : M cmap unit := fun m => mfor (basic m) clear m.

(** [data_.at(l).block(i0, j0, h, w).setConstant(NO_INFORMATION)] *)
Definition clear_block (i0 j0 h w : Z) (l : string) : M cmap unit := fun m =>
  match aget (data m) l with
  | None => Exn OutOfRange m
  | Some d => match mfill d i0 j0 h w NO_INFORMATION with
              | None => Flt OutOfBounds
              | Some d' => Ret tt (set_data m (aset (data m) l d'))
              end
  end.

(** cost_map.cpp:584-586 and 594-596 *)
Definition layers_to_clear (m : cmap) : list string :=
  match basic m with [] => layers m | b => b end.

(** cost_map.cpp:582-590 *)
Definition clearRows (i nrows : Z) : M cmap unit := fun m =>
  mfor (layers_to_clear m) (clear_block i 0 nrows (snd (size m))) m.

(** cost_map.cpp:592-600 *)
Definition clearCols (j ncols : Z) : M cmap unit := fun m =>
  mfor (layers_to_clear m) (clear_block 0 j (fst (size m)) ncols) m.

(* ------------------------------------------------------------------ *)
(** ** Submaps *)

Definition aput {A} (d : list (string * A)) (k : string) (v : A) : list (string * A) :=
  if amem d k then aset d k v else d ++ [(k, v)].

(** One assignment of cost_map.cpp:301-309 into a layer of the submap. *)
Definition copy_region (src : mat) (dst : mat) (b : region) : res mat :=
  let '(i, j) := rstart b in
  let '(h, w) := rsize b in
  match rquad b with
  | QTopLeft => of_opt OutOfBounds (mcopy dst 0 0 src i j h w)
  | QTopRight => of_opt OutOfBounds (mcopy dst 0 (mcols dst - w) src i j h w)
  | QBottomLeft => of_opt OutOfBounds (mcopy dst (mrows dst - h) 0 src i j h w)
  | QBottomRight => of_opt OutOfBounds (mcopy dst (mrows dst - h) (mcols dst - w) src i j h w)
  | QUndefined => Ok dst
  end.

Fixpoint copy_regions (src dst : mat) (bs : list region) : res mat :=
  match bs with
  | [] => Ok dst
  | b :: t => rbind (copy_region src dst b) (fun d => copy_regions src d t)
  end.

(** cost_map.cpp:296-312, the loop over data_. submap.data_[name] creates an
    empty matrix for an unknown name. *)
Fixpoint copy_layers (src : list (string * mat)) (dst : list (string * mat)) (bs : list region)
  : res (list (string * mat)) :=
  match src with
  | [] => Ok dst
  | (k, d) :: t =>
      let d0 := match aget dst k with Some x => x | None => Mat 0 0 [] end in
      rbind (copy_regions d d0 bs) (fun d' => copy_layers t (aput dst k d') bs)
  end.

(** submap_geometry.cpp:13-21: the constructor; None when isSuccess is false.
    The getters (lines 27-60) return the fields, getResolution the map's. *)
Definition submap_geometry (m : cmap) (q l : vec) : option subinfo :=
  submap_information q l (len m) (pos m) (resn m) (size m) (start m).

(** cost_map.cpp:280-325: (isSuccess, submap). The argument indexInSubmap is
    never assigned, so it is not part of the result. *)
Definition getSubmap (m : cmap) (q l : vec) : res (bool * cmap) :=
  let sub0 := set_frame (set_stamp (set_basic (new_map (layers m)) (basic m)) (stamp m)) (frame m) in
  match submap_information q l (len m) (pos m) (resn m) (size m) (start m) with
  | None => Ok (false, new_map (layers m))
  | Some i =>
      match setGeometry (si_len i) (resn m) (si_pos i) sub0 with
      | Flt f => Fault f
      | Exn e _ => Throw e
      | Ret _ sub1 =>
          let sub2 := set_start sub1 (0, 0) in
          match buffer_regions (si_start i) (size sub2) (size m) (start m) with
          | None => Ok (false, new_map (layers m))
          | Some bs => rbind (copy_layers (data m) (data sub2) bs) (fun d =>
                       Ok (true, set_data sub2 d))
          end
      end
  end.

(* ------------------------------------------------------------------ *)
(** ** Moving *)

(** The regions appended to newRegions are threaded as the result. *)
Definition row_region (m : cmap) (i n : Z) : region := Region (i, 0) (n, snd (size m)) QUndefined.
Definition col_region (m : cmap) (j n : Z) : region := Region (0, j) (fst (size m), n) QUndefined.

(** cost_map.cpp:337-383, body of the loop for axis 0 (rows) or axis 1 (columns). *)
Definition move_axis (rows : bool) (shift : Z) : M cmap (list region) := fun m =>
  let n := if rows then fst (size m) else snd (size m) in
  let s := if rows then fst (start m) else snd (start m) in
  let clr := if rows then clearRows else clearCols in
  let reg := if rows then row_region m else col_region m in
  if shift =? 0 then Ret [] m
  else if n <=? Z.abs shift then
    (clearAll ;;; ret [Region (0, 0) (size m) QUndefined]) m
  else
    let sign := if 0 <? shift then 1 else -1 in
    let startIndex := s - (if sign <? 0 then 1 else 0) in
    let endIndex := startIndex - sign + shift in
    let nCells := Z.abs shift in
    let index := bound1 (if 0 <? sign then startIndex else endIndex) n in
    if index + nCells <=? n then
      (clr index nCells ;;; ret [reg index nCells]) m
    else
      let firstNCells := n - index in
      let secondNCells := nCells - firstNCells in
      (clr index firstNCells ;;; clr 0 secondNCells ;;;
       ret [reg index firstNCells; reg 0 secondNCells]) m.

(** cost_map.cpp:327-393: (return value, appended regions). With the wrapping
    boundIndexToRange an empty map is an integer division by zero (line 388). *)
Definition move (p : vec) : M cmap (bool * list region) := fun m =>
  let k0 := index_shift1 (fsub (fst p) (fst (pos m))) (resn m) in
  let k1 := index_shift1 (fsub (snd p) (snd (pos m))) (resn m) in
  let d0 := position_shift1 k0 (resn m) in
  let d1 := position_shift1 k1 (resn m) in
  (r0 <- move_axis true k0 ;;
   r1 <- move_axis false k1 ;;
   (fun m' =>
     if match bpol with BWrap => (fst (size m') =? 0) || (snd (size m') =? 0) | BClamp => false end
     then Flt DivByZero
     else
       Ret (negb ((k0 =? 0) && (k1 =? 0)), r0 ++ r1)
         (set_pos (set_start m' (bound1 (fst (start m') + k0) (fst (size m')),
                                 bound1 (snd (start m') + k1) (snd (size m'))))
            (fadd (fst (pos m')) d0, fadd (snd (pos m')) d1)))) m.

(* ------------------------------------------------------------------ *)
(** ** Combining maps *)

(** std::fmod, which is exact in C. *)
Definition Qfmod (x y : Q) : Q := (x - y * inject_Z (Qtrunc (x / y)))%Q.

(** cost_map.cpp:442-467, one axis: the extended centre, extended length and
    whether the axis needs resizing. *)
Definition extend_axis (c L co Lo : Q) : Q * Q * bool :=
  let top := fadd c (fdiv L (2#1)) in
  let bot := fsub c (fdiv L (2#1)) in
  let topo := fadd co (fdiv Lo (2#1)) in
  let boto := fsub co (fdiv Lo (2#1)) in
  let '(c1, L1, b1) :=
    if Qlt_bool top topo
    then (fadd c (fdiv (fsub topo top) (2#1)), fadd L (fsub topo top), true)
    else (c, L, false) in
  if Qlt_bool boto bot
  then (fsub c1 (fdiv (fsub bot boto) (2#1)), fadd L1 (fsub bot boto), true)
  else (c1, L1, b1).

(** cost_map.cpp:470-480 and 481-488, one axis. copysign takes the sign of the
    remainder, which in IEEE arithmetic is the sign of the dividend even when
    the remainder is zero (the difference of equal positions is +0). *)
Definition align_axis (cnew cold r : Q) (nnew nold : Z) : Q :=
  let d := fsub cnew cold in
  let sh := Qfmod d r in
  let c1 := if Qlt_bool (Qabs sh) (fdiv r (2#1)) then fsub cnew sh else fadd cnew (fsub r sh) in
  if negb (Z.rem nnew 2 =? Z.rem nold 2)
  then fadd c1 (Qopp (if Qlt_bool d 0 then Qopp (fdiv r (2#1)) else fdiv r (2#1)))
  else c1.

(** cost_map.cpp:491-500 *)
Definition copy_from (old : cmap) (i : idx) : M cmap unit := fun m =>
  (v <- lift (isValid m i) ;;
   if v : bool then ret tt
   else match getPosition m i with
        | None => abort Uninit
        | Some p =>
            if negb (isInside old p) then ret tt
            else mfor (layers m) (fun l =>
                   w <- lift (at_ old l (snd (getIndex old p))) ;; at_set l i w)
        end) m.

(** cost_map.cpp:433-503 *)
Definition extendToInclude (other : cmap) : M cmap bool := fun m =>
  let '(cx, Lx, bx) := extend_axis (fst (pos m)) (fst (len m)) (fst (pos other)) (fst (len other)) in
  let '(cy, Ly, by_) := extend_axis (snd (pos m)) (snd (len m)) (snd (pos other)) (snd (len other)) in
  if negb (bx || by_) then Ret true m
  else
    (setGeometry (Lx, Ly) (resn m) (cx, cy) ;;;
     modify (fun m1 => set_pos m1
       (align_axis (fst (pos m1)) (fst (pos m)) (resn m1) (fst (size m1)) (fst (size m)),
        align_axis (snd (pos m1)) (snd (pos m)) (resn m1) (snd (size m1)) (snd (size m)))) ;;;
     (fun m2 => (vs <- lift (map_visits (size m2) (start m2)) ;; mfor vs (copy_from m)) m2) ;;;
     ret true) m.

(** cost_map.cpp:411-415 *)
Definition add_missing (l : string) : M cmap unit := fun m =>
  if smem l (layers m) then Ret tt m else add_value l NO_INFORMATION m.

(** cost_map.cpp:417-428, body of the loop *)
Definition merge_cell (other : cmap) (overwrite : bool) (ls : list string) (i : idx) : M cmap unit := fun m =>
  (v <- lift (isValid m i) ;;
   if v && negb overwrite then ret tt
   else match getPosition m i with
        | None => abort Uninit
        | Some p =>
            if negb (isInside other p) then ret tt
            else
              let j := snd (getIndex other p) in
              mfor ls (fun l =>
                ok <- lift (isValid_layer other j l) ;;
                if negb ok then ret tt
                else w <- lift (at_ other l j) ;; at_set l i w)
        end) m.

(** cost_map.cpp:401-431; [other] is a distinct object. *)
Definition addDataFrom (other : cmap) (extend overwrite copyAll : bool) (ls : list string) : M cmap bool :=
  let ls := if copyAll then layers other else ls in
  (if extend then extendToInclude other else ret true) ;;;
  mfor ls add_missing ;;;
  (fun m => (vs <- lift (map_visits (size m) (start m)) ;; mfor vs (merge_cell other overwrite ls)) m) ;;;
  ret true.

End CostMapModel.
