(** Functions of grid_map_core 1.6 (GridMapMath.cpp) that cost_map calls.
    The library is an external dependency that is not part of /repo; these
    definitions follow its published source and are part of the trusted base. *)
From Coq Require Import ZArith QArith Qround Qabs Qreduction List Bool Lia.
From Verif Require Import Base.
Import ListNotations.
Open Scope Z_scope.

Section GridMap.
Context {E : Env}.

(* ------------------------------------------------------------------ *)
(** ** Index arithmetic *)

(** checkIfIndexInRange(index, bufferSize) *)
Definition index_in_range (i : idx) (n : idx) : bool :=
  (0 <=? fst i) && (0 <=? snd i) && (fst i <? fst n) && (snd i <? snd n).

(** wrapIndexToRange(int& index, int bufferSize):
    if (index < 0) index += ((-index / bufferSize) + 1) * bufferSize;
    index = index % bufferSize;   (C division and remainder) *)
Definition wrap1 (i n : Z) : Z :=
  let i' := if i <? 0 then i + (Z.quot (- i) n + 1) * n else i in
  Z.rem i' n.

(** boundIndexToRange(int& index, int bufferSize): clamps in grid_map >= 1.6;
    its predecessor mapIndexWithinRange wrapped. *)
Definition bound1 (i n : Z) : Z :=
  match bpol with
  | BWrap => wrap1 i n
  | BClamp => if i <? 0 then 0 else if n <=? i then n - 1 else i
  end.

(** getIndexFromBufferIndex(bufferIndex, bufferSize, bufferStartIndex) *)
Definition unwrap_index (b n s : idx) : idx :=
  if idx_eqb s (0, 0) then b
  else (wrap1 (fst b - fst s) (fst n), wrap1 (snd b - snd s) (snd n)).

(** getBufferIndexFromIndex(index, bufferSize, bufferStartIndex) *)
Definition wrap_index (i n s : idx) : idx :=
  if idx_eqb s (0, 0) then i
  else (wrap1 (fst i + fst s) (fst n), wrap1 (snd i + snd s) (snd n)).

(** incrementIndex(index, bufferSize, bufferStartIndex): (success, index). *)
Definition increment_index (b n s : idx) : bool * idx :=
  let u := unwrap_index b n s in
  let u' := if snd u + 1 <? snd n then (fst u, snd u + 1) else (fst u + 1, 0) in
  if index_in_range u' n then (true, wrap_index u' n s) else (false, b).

(** incrementIndexForSubmap(submapIndex, index, submapTopLeftIndex,
    submapBufferSize, bufferSize, bufferStartIndex):
    (success, submapIndex, index). *)
Definition increment_submap (si b tl sn n s : idx) : bool * idx * idx :=
  let si' := if snd si + 1 <? snd sn then (fst si, snd si + 1) else (fst si + 1, 0) in
  if negb (index_in_range si' sn) then (false, si, b)
  else
    let t := unwrap_index tl n s in
    (true, si', wrap_index (fst t + fst si', snd t + snd si') n s).

(** getSubmapSizeFromCornerIndeces(topLeft, bottomRight, bufferSize, start) *)
Definition submap_size_from_corners (tl br n s : idx) : idx :=
  let a := unwrap_index tl n s in
  let b := unwrap_index br n s in
  (fst b - fst a + 1, snd b - snd a + 1).

(** getLinearIndexFromIndex(index, bufferSize, rowMajor = false) *)
Definition linear_index (i n : idx) : Z := snd i * fst n + fst i.

(** BufferRegion *)
Inductive quadrant := QUndefined | QTopLeft | QTopRight | QBottomLeft | QBottomRight.
Record region := Region { rstart : idx; rsize : idx; rquad : quadrant }.

(** getQuadrant(index, bufferStartIndex) *)
Definition get_quadrant (i s : idx) : quadrant :=
  if fst s <=? fst i
  then (if snd s <=? snd i then QTopLeft else QTopRight)
  else (if snd s <=? snd i then QBottomLeft else QBottomRight).

(** getBufferRegionsForSubmap(regions, submapIndex, submapBufferSize,
    bufferSize, bufferStartIndex); [None] when it returns false. *)
Definition buffer_regions (si sn n s : idx) : option (list region) :=
  let u := unwrap_index si n s in
  if (fst n <? fst u + fst sn) || (snd n <? snd u + snd sn) then None
  else
    let e := wrap_index (fst u + fst sn - 1, snd u + snd sn - 1) n s in
    match get_quadrant si s, get_quadrant e s with
    | QTopLeft, QTopLeft => Some [Region si sn QTopLeft]
    | QTopLeft, QTopRight =>
        let w := snd n - snd si in
        Some [Region si (fst sn, w) QTopLeft;
              Region (fst si, 0) (fst sn, snd sn - w) QTopRight]
    | QTopLeft, QBottomLeft =>
        let h := fst n - fst si in
        Some [Region si (h, snd sn) QTopLeft;
              Region (0, snd si) (fst sn - h, snd sn) QBottomLeft]
    | QTopLeft, QBottomRight =>
        let h := fst n - fst si in
        let w := snd n - snd si in
        Some [Region si (h, w) QTopLeft;
              Region (fst si, 0) (h, snd sn - w) QTopRight;
              Region (0, snd si) (fst sn - h, w) QBottomLeft;
              Region (0, 0) (fst sn - h, snd sn - w) QBottomRight]
    | QTopRight, QTopRight => Some [Region si sn QTopRight]
    | QTopRight, QBottomRight =>
        let h := fst n - fst si in
        Some [Region si (h, snd sn) QTopRight;
              Region (0, snd si) (fst sn - h, snd sn) QBottomRight]
    | QBottomLeft, QBottomLeft => Some [Region si sn QBottomLeft]
    | QBottomLeft, QBottomRight =>
        let w := snd n - snd si in
        Some [Region si (fst sn, w) QBottomLeft;
              Region (fst si, 0) (fst sn, snd sn - w) QBottomRight]
    | QBottomRight, QBottomRight => Some [Region si sn QBottomRight]
    | _, _ => None
    end.

(* ------------------------------------------------------------------ *)
(** ** Positions *)

(** checkIfPositionWithinMap(position, mapLength, mapPosition), one axis:
    t = -((p - mapPos) - 0.5*L); 0 <= t && t < L. *)
Definition within1 (p L c : Q) : bool :=
  let t := Qopp (fsub (fsub p c) (fmul (1#2) L)) in
  Qle_bool 0 t && Qlt_bool t L.

Definition position_within_map (p : vec) (L : vec) (c : vec) : bool :=
  within1 (fst p) (fst L) (fst c) && within1 (snd p) (snd L) (snd c).

(** getIndexFromPosition, one axis, before the buffer wrap:
    -(int)(((p - 0.5*L) - mapPos) / res). *)
Definition raw_index1 (p L c r : Q) : Z :=
  Qtrunc (Qopp (fdiv (fsub (fsub p (fmul (1#2) L)) c) r)).

(** getIndexFromPosition: (success, index); the index is always written. *)
Definition index_from_position (p L c : vec) (r : Q) (n s : idx) : bool * idx :=
  (position_within_map p L c,
   wrap_index (raw_index1 (fst p) (fst L) (fst c) r,
               raw_index1 (snd p) (snd L) (snd c) r) n s).

(** getPositionFromIndex, one axis, unwrapped index k:
    (mapPos + (0.5*L - 0.5*res)) + res*(-k). *)
Definition position1 (k : Z) (L c r : Q) : Q :=
  fadd (fadd c (fsub (fmul (1#2) L) (fmul (1#2) r))) (fmul r (inject_Z (- k))).

(** getPositionFromIndex: None when it returns false (position not written). *)
Definition position_from_index (i : idx) (L c : vec) (r : Q) (n s : idx) : option vec :=
  if index_in_range i n
  then let u := unwrap_index i n s in
       Some (position1 (fst u) (fst L) (fst c) r, position1 (snd u) (snd L) (snd c) r)
  else None.

(** getIndexShiftFromPositionShift, one axis:
    x = d/res; -(int)(x + 0.5*(x > 0 ? 1 : -1)). *)
Definition index_shift1 (d r : Q) : Z :=
  let x := fdiv d r in
  Qtrunc (Qopp (fadd x (if Qlt_bool 0 x then 1#2 else Qopp (1#2)))).

(** getPositionShiftFromIndexShift, one axis: (-shift)*res. *)
Definition position_shift1 (k : Z) (r : Q) : Q := fmul (inject_Z (- k)) r.

(** boundPositionToRange, one axis.  eps = 10*DBL_EPSILON (DBL_EPSILON =
    2^-52), scaled by |p| when |p| > 1. *)
Definition dbl_eps10 : Q := 10 # (2 ^ 52).
Definition bound_position1 (p L c : Q) : Q :=
  let o := fmul (1#2) L in
  let sh := fadd (fsub p c) o in
  let eps := if Qlt_bool 1 (Qabs p) then fmul dbl_eps10 (Qabs p) else dbl_eps10 in
  let sh' := if Qle_bool sh 0 then eps
             else if Qle_bool L sh then fsub L eps else sh in
  fsub (fadd sh' c) o.

Definition bound_position (p L c : vec) : vec :=
  (bound_position1 (fst p) (fst L) (fst c), bound_position1 (snd p) (snd L) (snd c)).

(** getSubmapInformation: topLeft buffer index, size, position, length, index of
    the requested position in the submap; None when it returns false. *)
Record subinfo := SubInfo
  { si_start : idx; si_size : idx; si_pos : vec; si_len : vec; si_req : idx }.

Definition submap_information (q l : vec) (L c : vec) (r : Q) (n s : idx) : option subinfo :=
  let tlp := bound_position (fadd (fst q) (fmul (1#2) (fst l)),
                             fadd (snd q) (fmul (1#2) (snd l))) L c in
  let '(ok1, tli) := index_from_position tlp L c r n s in
  if negb ok1 then None else
  let tlu := unwrap_index tli n s in
  let brp := bound_position (fsub (fst q) (fmul (1#2) (fst l)),
                             fsub (snd q) (fmul (1#2) (snd l))) L c in
  let '(ok2, bri) := index_from_position brp L c r n s in
  if negb ok2 then None else
  let bru := unwrap_index bri n s in
  match position_from_index tli L c r n s with
  | None => None
  | Some ctr =>
      let tlc := (fadd (fst ctr) (fmul (1#2) r), fadd (snd ctr) (fmul (1#2) r)) in
      let sz := (fst bru - fst tlu + 1, snd bru - snd tlu + 1) in
      let sl := (fmul (inject_Z (fst sz)) r, fmul (inject_Z (snd sz)) r) in
      let sp := (fsub (fst tlc) (fmul (1#2) (fst sl)), fsub (snd tlc) (fmul (1#2) (snd sl))) in
      let '(ok3, rq) := index_from_position q sl sp r sz (0, 0) in
      if ok3 then Some (SubInfo tli sz sp sl rq) else None
  end.

End GridMap.
