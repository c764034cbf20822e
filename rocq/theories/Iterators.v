(** Circle, ellipse, polygon, line and spiral iterators. *)
From Coq Require Import ZArith QArith Qround Qabs List Bool String.
From Verif Require Import Base Mat GridMapMath GridIter CostMap.
Import ListNotations.
Open Scope Z_scope.

(** [for (it; !it.isPastEnd(); ++it)] for iterators whose operations can fail:
    the list of dereferenced values. *)
Section Driver.
Context {I A : Type} (past : I -> bool) (cur : I -> res A) (next : I -> res I).
Fixpoint runM (fuel : nat) (it : I) : res (list A) :=
  match fuel with
  | O => Fault OutOfFuel
  | S f => if past it then Ok []
           else rbind (cur it) (fun a => rbind (next it) (fun it' => rbind (runM f it') (fun l => Ok (a :: l))))
  end.
End Driver.

Section Iterators.
Context {E : Env}.

(* ------------------------------------------------------------------ *)
(** ** Windows filtered by a test: circle, ellipse, polygon *)

Section Filtered.
(** isInside() of the current index. *)
Context (ins : idx -> res bool).

(** The for loop of operator++: circle_iterator.cpp:62-64,
    ellipse_iterator.cpp:65-67, polygon_iterator.cpp:58-60. *)
Fixpoint seek (fuel : nat) (it : sub_iter) : res sub_iter :=
  match fuel with
  | O => Fault OutOfFuel
  | S f => if sb_past it then Ok it
           else rbind (ins (sb_index it)) (fun b => if b then Ok it else seek f (sub_iter_next it))
  end.

(** operator++: circle_iterator.cpp:57-67, ellipse_iterator.cpp:60-70,
    polygon_iterator.cpp:53-63. *)
Definition filt_next (it : sub_iter) : res sub_iter :=
  let it' := sub_iter_next it in
  if sb_past it' then Ok it' else seek (grid_fuel (sb_ssize it)) it'.

(** The last two statements of the constructors: circle_iterator.cpp:29-30,
    ellipse_iterator.cpp:32-33, polygon_iterator.cpp:27-28. *)
Definition filt_new (n s sstart ssize : idx) : res sub_iter :=
  let it := sub_iter_new n s sstart ssize in
  rbind (ins (sb_index it)) (fun b => if b then Ok it else filt_next it).

(** The indices of a whole loop. *)
Definition filt_visits (n s sstart ssize : idx) : res (list idx) :=
  rbind (filt_new n s sstart ssize)
    (runM sb_past (fun it => Ok (sb_index it)) filt_next (grid_fuel ssize)).
End Filtered.

(** The position of an index; when getPositionFromIndex returns false the C++
    goes on with an uninitialised position. *)
Definition position_or_uninit (m : cmap) (i : idx) : res vec :=
  match getPosition m i with Some p => Ok p | None => Fault Uninit end.

(** First part of findSubmapParameters: the indices of the bounded corners.
    circle_iterator.cpp:87-91, ellipse_iterator.cpp:94-98,
    polygon_iterator.cpp:85-89. *)
Definition corner_index (m : cmap) (p : vec) : idx :=
  snd (index_from_position (bound_position p (len m) (pos m)) (len m) (pos m) (resn m) (size m) (start m)).

(** circle_iterator.cpp:74-80; radiusSquare_ from line 20. *)
Definition circle_inside (m : cmap) (c : vec) (R : Q) (i : idx) : res bool :=
  rbind (position_or_uninit m i) (fun p =>
  let dx := fsub (fst p) (fst c) in
  let dy := fsub (snd p) (snd c) in
  Ok (Qle_bool (fadd (fmul dx dx) (fmul dy dy)) (fmul R R))).

(** circle_iterator.cpp:82-93 *)
Definition circle_window (m : cmap) (c : vec) (R : Q) : idx * idx :=
  let s := corner_index m (fadd (fst c) R, fadd (snd c) R) in
  let e := corner_index m (fsub (fst c) R, fsub (snd c) R) in
  (s, (fst e - fst s + 1, snd e - snd s + 1)).

(** A loop over CircleIterator(map, c, R): circle_iterator.cpp:16-72. *)
Definition circle_visits (m : cmap) (c : vec) (R : Q) : res (list idx) :=
  let '(s, n) := circle_window m c R in
  filt_visits (circle_inside m c R) (size m) (start m) s n.

(** ellipse_iterator.cpp:77-83. [cs], [sn]: cosine and sine of the rotation
    (lines 21-23), [L] the lengths of the axes (line 20). *)
Definition ellipse_inside (m : cmap) (c L : vec) (cs sn : Q) (i : idx) : res bool :=
  rbind (position_or_uninit m i) (fun p =>
  let dx := fsub (fst p) (fst c) in
  let dy := fsub (snd p) (snd c) in
  let a := fadd (fmul cs dx) (fmul sn dy) in
  let b := fadd (fmul sn dx) (fmul (Qopp cs) dy) in
  let ha := fmul (1#2) (fst L) in
  let hb := fmul (1#2) (snd L) in
  Ok (Qle_bool (fadd (fdiv (fmul a a) (fmul ha ha)) (fdiv (fmul b b) (fmul hb hb))) 1)).

(** ellipse_iterator.cpp:85-100; [sqr] is the square root. *)
Definition ellipse_window (sqr : Q -> Q) (m : cmap) (c L : vec) (cs sn : Q) : idx * idx :=
  let u := (fmul cs (fst L), fmul sn (fst L)) in
  let v := (fmul (Qopp sn) (snd L), fmul cs (snd L)) in
  let hx := sqr (fadd (fmul (fst u) (fst u)) (fmul (fst v) (fst v))) in
  let hy := sqr (fadd (fmul (snd u) (snd u)) (fmul (snd v) (snd v))) in
  let s := corner_index m (fadd (fst c) hx, fadd (snd c) hy) in
  let e := corner_index m (fsub (fst c) hx, fsub (snd c) hy) in
  (s, (fst e - fst s + 1, snd e - snd s + 1)).

(** A loop over EllipseIterator(map, c, L, rotation): ellipse_iterator.cpp:17-75.
    The sine and cosine are given, instead of the angle. *)
Definition ellipse_visits (sqr : Q -> Q) (m : cmap) (c L : vec) (cs sn : Q) : res (list idx) :=
  let '(s, n) := ellipse_window sqr m c L cs sn in
  filt_visits (ellipse_inside m c L cs sn) (size m) (start m) s n.

(** grid_map::Polygon::isInside (grid_map_core/src/Polygon.cpp), one edge from
    vertex i to its predecessor j. *)
Definition crosses (vi vj p : vec) : bool :=
  negb (Bool.eqb (Qlt_bool (snd p) (snd vi)) (Qlt_bool (snd p) (snd vj))) &&
  Qlt_bool (fst p)
    (fadd (fdiv (fmul (fsub (fst vj) (fst vi)) (fsub (snd p) (snd vi))) (fsub (snd vj) (snd vi))) (fst vi)).

(** The loop [for (i = 0, j = size - 1; i < size; j = i++)]. *)
Fixpoint count_crossings (vj : vec) (vs : list vec) (p : vec) : nat :=
  match vs with
  | [] => O
  | vi :: t => ((if crosses vi vj p then 1 else 0) + count_crossings vi t p)%nat
  end.

Definition polygon_contains (vs : list vec) (p : vec) : bool :=
  match vs with [] => false | v :: _ => Nat.odd (count_crossings (last vs v) vs p) end.

(** polygon_iterator.cpp:70-75 *)
Definition polygon_inside (m : cmap) (vs : list vec) (i : idx) : res bool :=
  rbind (position_or_uninit m i) (fun p => Ok (polygon_contains vs p)).

Definition vmax (a b : vec) : vec :=
  (if Qlt_bool (fst a) (fst b) then fst b else fst a, if Qlt_bool (snd a) (snd b) then snd b else snd a).
Definition vmin (a b : vec) : vec :=
  (if Qlt_bool (fst b) (fst a) then fst b else fst a, if Qlt_bool (snd b) (snd a) then snd b else snd a).

(** polygon_iterator.cpp:77-91. Reading vertex 0 of an empty polygon is
    undefined. *)
Definition polygon_window (m : cmap) (vs : list vec) : res (idx * idx) :=
  match vs with
  | [] => Fault OutOfBounds
  | v :: _ =>
      let s := corner_index m (fold_left vmax vs v) in
      let e := corner_index m (fold_left vmin vs v) in
      Ok (s, submap_size_from_corners s e (size m) (start m))
  end.

(** A loop over PolygonIterator(map, polygon): polygon_iterator.cpp:16-68. *)
Definition polygon_visits (m : cmap) (vs : list vec) : res (list idx) :=
  rbind (polygon_window m vs) (fun '(s, n) =>
  filt_visits (polygon_inside m vs) (size m) (start m) s n).

(* ------------------------------------------------------------------ *)
(** ** Lines *)

(** line_iterator.hpp, private members; the map parameters are not used. *)
Record line_iter := LineIter
  { li_index : idx; li_icell : Z; li_ncells : Z; li_inc1 : idx; li_inc2 : idx;
    li_den : Z; li_num : Z; li_add : Z }.

(** line_iterator.cpp:78-91, 107-151 *)
Definition line_new (a b : idx) : line_iter :=
  let dx := Z.abs (fst b - fst a) in
  let dy := Z.abs (snd b - snd a) in
  let sx := if fst a <=? fst b then 1 else -1 in
  let sy := if snd a <=? snd b then 1 else -1 in
  if dy <=? dx
  then LineIter a 0 (dx + 1) (0, sy) (sx, 0) dx (Z.quot dx 2) dy
  else LineIter a 0 (dy + 1) (sx, 0) (0, sy) dy (Z.quot dy 2) dx.

(** line_iterator.cpp:61-71 *)
Definition line_next (it : line_iter) : line_iter :=
  let num := li_num it + li_add it in
  let step := li_den it <=? num in
  let num' := if step then num - li_den it else num in
  let i := if step then (fst (li_index it) + fst (li_inc1 it), snd (li_index it) + snd (li_inc1 it)) else li_index it in
  LineIter (fst i + fst (li_inc2 it), snd i + snd (li_inc2 it)) (li_icell it + 1) (li_ncells it)
    (li_inc1 it) (li_inc2 it) (li_den it) num' (li_add it).

(** line_iterator.cpp:73-76 *)
Definition line_past (it : line_iter) : bool := li_ncells it <=? li_icell it.

(** The indices of a whole loop over a line iterator. *)
Definition line_run (it : line_iter) : res (list idx) :=
  run line_past li_index line_next (Z.to_nat (li_ncells it + 1)) it.

(** A loop over LineIterator(map, a, b) with indices a, b. *)
Definition line_visits (a b : idx) : res (list idx) := line_run (line_new a b).

Definition dbl_eps : Q := 1 # (2 ^ 52).

(** line_iterator.cpp:99-103: the loop, with a fuel. [st] is newStart, [dir] the
    direction; the index when the search succeeds, None when it returns false. *)
Fixpoint limit_loop (sqr : Q -> Q) (m : cmap) (en dir : vec) (fuel : nat) (st : vec) : res (option idx) :=
  match fuel with
  | O => Fault OutOfFuel
  | S f =>
      let '(ok, i) := getIndex m st in
      if ok then Ok (Some i)
      else
        let step := fsub (resn m) dbl_eps in
        let st' := (fadd (fst st) (fmul step (fst dir)), fadd (snd st) (fmul step (snd dir))) in
        let dx := fsub (fst en) (fst st') in
        let dy := fsub (snd en) (snd st') in
        if Qlt_bool (sqr (fadd (fmul dx dx) (fmul dy dy))) step then Ok None
        else limit_loop sqr m en dir f st'
  end.

(** line_iterator.cpp:93-105. normalized() leaves a zero vector alone. *)
Definition limited_index (sqr : Q -> Q) (m : cmap) (st en : vec) (fuel : nat) : res (option idx) :=
  let dx := fsub (fst en) (fst st) in
  let dy := fsub (snd en) (snd st) in
  let z := fadd (fmul dx dx) (fmul dy dy) in
  let dir := if Qlt_bool 0 z then (fdiv dx (sqr z), fdiv dy (sqr z)) else (dx, dy) in
  limit_loop sqr m en dir fuel st.

(** line_iterator.cpp:16-24. None: the members are left uninitialised. *)
Definition line_new_positions (sqr : Q -> Q) (m : cmap) (st en : vec) (fuel : nat) : res (option line_iter) :=
  rbind (limited_index sqr m st en fuel) (fun a =>
  match a with
  | None => Ok None
  | Some a => rbind (limited_index sqr m en st fuel) (fun b =>
      match b with None => Ok None | Some b => Ok (Some (line_new a b)) end)
  end).

(** A loop over LineIterator(map, st, en): isPastEnd() of an uninitialised
    iterator is undefined. *)
Definition line_visits_positions (sqr : Q -> Q) (m : cmap) (st en : vec) (fuel : nat) : res (list idx) :=
  rbind (line_new_positions sqr m st en fuel) (fun o =>
  match o with None => Fault Uninit | Some it => line_run it end).

(* ------------------------------------------------------------------ *)
(** ** Spirals *)

(** (int) Vector(x, y).norm(). The square root is exact here; in doubles this
    holds as long as x*x + y*y < 2^52. *)
Definition inorm (x y : Z) : Z := Z.sqrt (x * x + y * y).

(** spiral_iterator.cpp:97-108: the next point of a ring walk. *)
Definition ring_step (d : Z) (p : idx) : idx :=
  let nx := - Z.sgn (snd p) in
  let ny := Z.sgn (fst p) in
  if negb (nx =? 0) && (inorm (fst p + nx) (snd p) =? d) then (fst p + nx, snd p)
  else if negb (ny =? 0) && (inorm (fst p) (snd p + ny) =? d) then (fst p, snd p + ny)
  else (fst p + nx, snd p + ny).

(** spiral_iterator.cpp:86-109: the points of a ring walk (do-while). *)
Fixpoint ring_walk (d : Z) (fuel : nat) (p : idx) : res (list idx) :=
  match fuel with
  | O => Fault OutOfFuel
  | S f => let p' := ring_step d p in
           if idx_eqb p' (d, 0) then Ok [p]
           else rbind (ring_walk d f p') (fun l => Ok (p :: l))
  end.
Definition ring (d : Z) : res (list idx) := ring_walk d (Z.to_nat (8 * d + 1)) (d, 0).

(** spiral_iterator.hpp, private members that vary; sp_points is the vector with
    its back element first. *)
Record spiral := Spiral { sp_center : idx; sp_rings : Z; sp_dist : Z; sp_points : list idx }.

(** spiral_iterator.cpp:72-78. The start index of the map is not passed. *)
Definition spiral_inside (m : cmap) (c : vec) (R : Q) (i : idx) : res bool :=
  match position_from_index i (len m) (pos m) (resn m) (size m) (0, 0) with
  | None => Fault Uninit
  | Some p => let dx := fsub (fst p) (fst c) in
              let dy := fsub (snd p) (snd c) in
              Ok (Qle_bool (fadd (fmul dx dx) (fmul dy dy)) (fmul R R))
  end.

(** spiral_iterator.cpp:87-96 for the points of a walk, in order. nRings_ - 1 is
    unsigned arithmetic. *)
Fixpoint spiral_collect (m : cmap) (c : vec) (R : Q) (ic : idx) (nr d : Z) (ps : list idx) (acc : list idx) : res (list idx) :=
  match ps with
  | [] => Ok acc
  | p :: t =>
      let q := (fst p + fst ic, snd p + snd ic) in
      if index_in_range q (size m)
      then if (d =? nr) || (d =? (nr - 1) mod 2 ^ 32)
           then rbind (spiral_inside m c R q) (fun b =>
                spiral_collect m c R ic nr d t (if b then q :: acc else acc))
           else spiral_collect m c R ic nr d t (q :: acc)
      else spiral_collect m c R ic nr d t acc
  end.

(** spiral_iterator.cpp:80-110 *)
Definition generate_ring (m : cmap) (c : vec) (R : Q) (it : spiral) : res spiral :=
  let d := sp_dist it + 1 in
  rbind (ring d) (fun ps =>
  rbind (spiral_collect m c R (sp_center it) (sp_rings it) d ps (sp_points it)) (fun acc =>
  Ok (Spiral (sp_center it) (sp_rings it) d acc))).

(** spiral_iterator.cpp:67-70 *)
Definition spiral_past (it : spiral) : bool :=
  (sp_dist it =? sp_rings it) && match sp_points it with [] => true | _ => false end.

(** spiral_iterator.cpp:17-32. Converting a value outside the range of unsigned
    int is undefined. *)
Definition spiral_new (m : cmap) (c : vec) (R : Q) : res spiral :=
  let ic := snd (getIndex m c) in
  let nr := Qceiling (fdiv R (resn m)) in
  if (nr <? 0) || (2 ^ 32 <=? nr) then Fault BadCast
  else if index_in_range ic (size m) then Ok (Spiral ic nr 0 [ic])
  else generate_ring m c R (Spiral ic nr 0 []).

(** spiral_iterator.cpp:55-58: back() of an empty vector is undefined. *)
Definition spiral_cur (it : spiral) : res idx :=
  match sp_points it with p :: _ => Ok p | [] => Fault OutOfBounds end.

(** spiral_iterator.cpp:60-65 *)
Definition spiral_next (m : cmap) (c : vec) (R : Q) (it : spiral) : res spiral :=
  match sp_points it with
  | [] => Fault OutOfBounds
  | _ :: t =>
      let it' := Spiral (sp_center it) (sp_rings it) (sp_dist it) t in
      match t with
      | [] => if spiral_past it' then Ok it' else generate_ring m c R it'
      | _ => Ok it'
      end
  end.

(** spiral_iterator.cpp:50-53: the other iterator is not looked at. *)
Definition spiral_ne (a b : spiral) : res bool :=
  match sp_points a with p :: _ => Ok (negb (idx_eqb p p)) | [] => Fault OutOfBounds end.

(** A loop over SpiralIterator(map, c, R). *)
Definition spiral_visits (m : cmap) (c : vec) (R : Q) (fuel : nat) : res (list idx) :=
  rbind (spiral_new m c R) (runM spiral_past spiral_cur (spiral_next m c R) fuel).

End Iterators.
