(** The index arithmetic again, with int instead of unbounded integers: every
    result outside -2^31..2^31-1 and every division by zero is [None] (undefined
    behaviour in C++). The functions follow those of the same name without [i]
    in GridMapMath.v, GridIter.v, Iterators.v and CostMap.v operation by
    operation. *)
From Coq Require Import ZArith QArith List Bool.
From Verif Require Import Base Mat GridMapMath GridIter CostMap Iterators.
Import ListNotations.
Open Scope Z_scope.

(** A value of type int. *)
Definition int (z : Z) : option Z := if (-2147483648 <=? z) && (z <? 2147483648) then Some z else None.

Definition obind {A B} (x : option A) (f : A -> option B) : option B :=
  match x with Some a => f a | None => None end.
Declare Scope int_scope.
Notation "x <- c ;; k" := (obind c (fun x => k)) (at level 100, c at next level, right associativity) : int_scope.
Open Scope int_scope.

Definition idiv (a b : Z) : option Z := if b =? 0 then None else int (Z.quot a b).
Definition irem (a b : Z) : option Z := if b =? 0 then None else _ <- int (Z.quot a b) ;; int (Z.rem a b).

Section IntGrid.
Context {E : Env}.

(** grid_map_core, see GridMapMath.v *)
Definition iwrap1 (i n : Z) : option Z :=
  i' <- (if i <? 0
         then a <- int (- i) ;; q <- idiv a n ;; q1 <- int (q + 1) ;; t <- int (q1 * n) ;; int (i + t)
         else Some i) ;;
  irem i' n.

Definition ibound1 (i n : Z) : option Z :=
  match bpol with
  | BWrap => iwrap1 i n
  | BClamp => if i <? 0 then Some 0 else if n <=? i then int (n - 1) else Some i
  end.

Definition iunwrap_index (b n s : idx) : option idx :=
  if idx_eqb s (0, 0) then Some b
  else a0 <- int (fst b - fst s) ;; a1 <- int (snd b - snd s) ;;
       x <- iwrap1 a0 (fst n) ;; y <- iwrap1 a1 (snd n) ;; Some (x, y).

Definition iwrap_index (i n s : idx) : option idx :=
  if idx_eqb s (0, 0) then Some i
  else a0 <- int (fst i + fst s) ;; a1 <- int (snd i + snd s) ;;
       x <- iwrap1 a0 (fst n) ;; y <- iwrap1 a1 (snd n) ;; Some (x, y).

Definition iincrement_index (b n s : idx) : option (bool * idx) :=
  u <- iunwrap_index b n s ;; c <- int (snd u + 1) ;;
  u' <- (if c <? snd n then Some (fst u, c) else r <- int (fst u + 1) ;; Some (r, 0)) ;;
  if index_in_range u' n then w <- iwrap_index u' n s ;; Some (true, w) else Some (false, b).

Definition iincrement_submap (si b tl sn n s : idx) : option (bool * idx * idx) :=
  c <- int (snd si + 1) ;;
  si' <- (if c <? snd sn then Some (fst si, c) else r <- int (fst si + 1) ;; Some (r, 0)) ;;
  if negb (index_in_range si' sn) then Some (false, si, b)
  else t <- iunwrap_index tl n s ;; a0 <- int (fst t + fst si') ;; a1 <- int (snd t + snd si') ;;
       w <- iwrap_index (a0, a1) n s ;; Some (true, si', w).

Definition isubmap_size_from_corners (tl br n s : idx) : option idx :=
  a <- iunwrap_index tl n s ;; b <- iunwrap_index br n s ;;
  d0 <- int (fst b - fst a) ;; d1 <- int (snd b - snd a) ;; h <- int (d0 + 1) ;; w <- int (d1 + 1) ;; Some (h, w).

Definition ilinear_index (i n : idx) : option Z := p <- int (snd i * fst n) ;; int (p + fst i).

Definition ibuffer_regions (si sn n s : idx) : option (option (list region)) :=
  u <- iunwrap_index si n s ;; b0 <- int (fst u + fst sn) ;; b1 <- int (snd u + snd sn) ;;
  if (fst n <? b0) || (snd n <? b1) then Some None
  else
    e0 <- int (b0 - 1) ;; e1 <- int (b1 - 1) ;; e <- iwrap_index (e0, e1) n s ;;
    h <- int (fst n - fst si) ;; w <- int (snd n - snd si) ;;
    h' <- int (fst sn - h) ;; w' <- int (snd sn - w) ;;
    Some match get_quadrant si s, get_quadrant e s with
    | QTopLeft, QTopLeft => Some [Region si sn QTopLeft]
    | QTopLeft, QTopRight => Some [Region si (fst sn, w) QTopLeft; Region (fst si, 0) (fst sn, w') QTopRight]
    | QTopLeft, QBottomLeft => Some [Region si (h, snd sn) QTopLeft; Region (0, snd si) (h', snd sn) QBottomLeft]
    | QTopLeft, QBottomRight =>
        Some [Region si (h, w) QTopLeft; Region (fst si, 0) (h, w') QTopRight;
              Region (0, snd si) (h', w) QBottomLeft; Region (0, 0) (h', w') QBottomRight]
    | QTopRight, QTopRight => Some [Region si sn QTopRight]
    | QTopRight, QBottomRight => Some [Region si (h, snd sn) QTopRight; Region (0, snd si) (h', snd sn) QBottomRight]
    | QBottomLeft, QBottomLeft => Some [Region si sn QBottomLeft]
    | QBottomLeft, QBottomRight => Some [Region si (fst sn, w) QBottomLeft; Region (fst si, 0) (fst sn, w') QBottomRight]
    | QBottomRight, QBottomRight => Some [Region si sn QBottomRight]
    | _, _ => None
    end.

(** The conversion to int comes before the change of sign. *)
Definition iraw_index1 (p L c r : Q) : option Z :=
  k <- int (Qtrunc (fdiv (fsub (fsub p (fmul (1#2) L)) c) r)) ;; int (- k).

Definition iindex_from_position (p L c : vec) (r : Q) (n s : idx) : option (bool * idx) :=
  k0 <- iraw_index1 (fst p) (fst L) (fst c) r ;; k1 <- iraw_index1 (snd p) (snd L) (snd c) r ;;
  w <- iwrap_index (k0, k1) n s ;; Some (position_within_map p L c, w).

Definition iposition_from_index (i : idx) (L c : vec) (r : Q) (n s : idx) : option (option vec) :=
  if index_in_range i n
  then u <- iunwrap_index i n s ;; k0 <- int (- fst u) ;; k1 <- int (- snd u) ;;
       Some (Some (position1 (fst u) (fst L) (fst c) r, position1 (snd u) (snd L) (snd c) r))
  else Some None.

Definition iindex_shift1 (d r : Q) : option Z :=
  let x := fdiv d r in
  k <- int (Qtrunc (fadd x (if Qlt_bool 0 x then 1#2 else Qopp (1#2)))) ;; int (- k).

(** Loops whose step can fail. *)
Section Driver.
Context {I A : Type} (past : I -> bool) (cur : I -> A) (next : I -> option I).
Fixpoint irun (fuel : nat) (it : I) : option (list A) :=
  match fuel with
  | O => None
  | S f => if past it then Some [] else it' <- next it ;; l <- irun f it' ;; Some (cur it :: l)
  end.
End Driver.

(** cost_map_iterator.cpp:14-22, 58-62 *)
Definition imap_iter_new (n s : idx) : option map_iter :=
  a0 <- int (fst s + fst n) ;; a1 <- int (snd s + snd n) ;; b0 <- int (a0 - 1) ;; b1 <- int (a1 - 1) ;;
  e0 <- ibound1 b0 (fst n) ;; e1 <- ibound1 b1 (snd n) ;; Some (MapIter n s (e0, e1) s false).
Definition imap_iter_next (it : map_iter) : option map_iter :=
  r <- iincrement_index (mi_index it) (mi_size it) (mi_start it) ;;
  Some (MapIter (mi_size it) (mi_start it) (mi_end it) (snd r) (negb (fst r))).
Definition imap_visits (n s : idx) : option (list idx) :=
  it <- imap_iter_new n s ;; irun mi_past mi_index imap_iter_next (grid_fuel n) it.

(** submap_iterator.cpp:81-86 *)
Definition isub_iter_next (it : sub_iter) : option sub_iter :=
  r <- iincrement_submap (sb_sindex it) (sb_index it) (sb_sstart it) (sb_ssize it) (sb_size it) (sb_start it) ;;
  let '(ok, si, i) := r in Some (SubIter (sb_size it) (sb_start it) (sb_ssize it) (sb_sstart it) i si (negb ok)).
Definition isub_visits (n s sstart ssize : idx) : option (list (idx * idx)) :=
  irun sb_past (fun it => (sb_index it, sb_sindex it)) isub_iter_next (grid_fuel ssize) (sub_iter_new n s sstart ssize).

(** line_iterator.cpp:61-91, 107-151 *)
Definition iline_new (a b : idx) : option line_iter :=
  d0 <- int (fst b - fst a) ;; d1 <- int (snd b - snd a) ;; dx <- int (Z.abs d0) ;; dy <- int (Z.abs d1) ;;
  let sx := if fst a <=? fst b then 1 else -1 in
  let sy := if snd a <=? snd b then 1 else -1 in
  if dy <=? dx
  then h <- idiv dx 2 ;; c <- int (dx + 1) ;; Some (LineIter a 0 c (0, sy) (sx, 0) dx h dy)
  else h <- idiv dy 2 ;; c <- int (dy + 1) ;; Some (LineIter a 0 c (sx, 0) (0, sy) dy h dx).

Definition iline_next (it : line_iter) : option line_iter :=
  num <- int (li_num it + li_add it) ;;
  let step := li_den it <=? num in
  num' <- (if step then int (num - li_den it) else Some num) ;;
  i <- (if step then x <- int (fst (li_index it) + fst (li_inc1 it)) ;; y <- int (snd (li_index it) + snd (li_inc1 it)) ;; Some (x, y)
        else Some (li_index it)) ;;
  x <- int (fst i + fst (li_inc2 it)) ;; y <- int (snd i + snd (li_inc2 it)) ;; c <- int (li_icell it + 1) ;;
  Some (LineIter (x, y) c (li_ncells it) (li_inc1 it) (li_inc2 it) (li_den it) num' (li_add it)).

Definition iline_visits (a b : idx) : option (list idx) :=
  it <- iline_new a b ;; irun line_past li_index iline_next (Z.to_nat (li_ncells it + 1)) it.

(** An int computation inside a call that changes the map. *)
Definition with_int {A} (x : option Z) (f : Z -> M cmap A) : M cmap A :=
  match x with Some z => f z | None => abort BadCast end.

(** cost_map.cpp:337-383 *)
Definition imove_axis (rows : bool) (shift : Z) : M cmap (list region) := fun m =>
  let n := if rows then fst (size m) else snd (size m) in
  let s := if rows then fst (start m) else snd (start m) in
  let clr := if rows then clearRows else clearCols in
  let reg := if rows then row_region m else col_region m in
  if shift =? 0 then Ret [] m
  else with_int (int (Z.abs shift)) (fun nCells =>
    if n <=? nCells then (clearAll ;;; ret [Region (0, 0) (size m) QUndefined])%mon
    else
      let sign := if 0 <? shift then 1 else -1 in
      with_int (int (s - (if sign <? 0 then 1 else 0))) (fun startIndex =>
      with_int (e <- int (startIndex - sign) ;; int (e + shift)) (fun endIndex =>
      with_int (ibound1 (if 0 <? sign then startIndex else endIndex) n) (fun index =>
      with_int (int (index + nCells)) (fun last =>
      if last <=? n then (clr index nCells ;;; ret [reg index nCells])%mon
      else
        with_int (int (n - index)) (fun firstNCells =>
        with_int (int (nCells - firstNCells)) (fun secondNCells =>
        (clr index firstNCells ;;; clr 0 secondNCells ;;;
         ret [reg index firstNCells; reg 0 secondNCells])%mon))))))) m.

(** cost_map.cpp:327-393 *)
Definition imove (p : vec) : M cmap (bool * list region) := fun m =>
  with_int (iindex_shift1 (fsub (fst p) (fst (pos m))) (resn m)) (fun k0 =>
  with_int (iindex_shift1 (fsub (snd p) (snd (pos m))) (resn m)) (fun k1 =>
  with_int (int (- k0)) (fun z0 => with_int (int (- k1)) (fun z1 =>
  let d0 := fmul (inject_Z z0) (resn m) in
  let d1 := fmul (inject_Z z1) (resn m) in
  bind (imove_axis true k0) (fun r0 =>
  bind (imove_axis false k1) (fun r1 =>
  (fun m' =>
     with_int (a <- int (fst (start m') + k0) ;; ibound1 a (fst (size m'))) (fun s0 =>
     with_int (a <- int (snd (start m') + k1) ;; ibound1 a (snd (size m'))) (fun s1 => fun m'' =>
     Ret (negb ((k0 =? 0) && (k1 =? 0)), r0 ++ r1)
         (set_pos (set_start m'' (s0, s1)) (fadd (fst (pos m'')) d0, fadd (snd (pos m'')) d1)))) m'))))))) m.

End IntGrid.
