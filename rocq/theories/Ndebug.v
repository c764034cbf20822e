(** Builds with NDEBUG, in which the assertions of cost_map and Eigen vanish. *)
From Coq Require Import ZArith QArith String List Bool.
From Verif Require Import Base Mat GridMapMath CostMap Converter.
Import ListNotations.
Open Scope Z_scope.

Section Ndebug.
Context {E : Env}.
Local Open Scope mon_scope.

(** cost_map.cpp:92-105 without lines 94, 95 *)
Definition nd_add (l : string) (d : mat) : M cmap unit := fun m =>
  if exists_layer m l
  then Ret tt (set_data m (aset (data m) l d))
  else Ret tt (set_layers (set_data m (ainsert (data m) l d)) (layers m ++ [l])).

(** cost_map.cpp:43-62 without lines 46-48. A division by zero gives no number that
    fits an int; a negative number of cells is no size of a matrix. *)
Definition nd_setGeometry (l : vec) (r : Q) (p : vec) : M cmap unit :=
  if Qeq_bool r 0 then abort BadCast
  else
    let n := (Qround_away (fdiv (fst l) r), Qround_away (fdiv (snd l) r)) in
    if (fst n <? 0) || (snd n <? 0) then abort OutOfBounds
    else
      resize n ;;; clearAll ;;;
      modify (fun m => set_geo m (fmul (inject_Z (fst (size m))) r, fmul (inject_Z (snd (size m))) r) r p (0, 0)).

(** converter.cpp:198-205 *)
Definition nd_add_array (la : string * marray) : M cmap unit :=
  d <- lift (array_to_matrix (snd la)) ;; nd_add (fst la) d.

(** converter.cpp:186-210 *)
Definition nd_fromMessage (g : msg) : M cmap bool :=
  setTimestamp (to_nsec (g_stamp g)) ;;;
  setFrameId (g_frame g) ;;;
  nd_setGeometry (g_length g) (g_resn g) (g_position g) ;;;
  if negb (Nat.eqb (length (g_layers g)) (length (g_data g))) then ret false
  else
    mfor (combine (g_layers g) (g_data g)) nd_add_array ;;;
    setBasicLayers (g_basic g) ;;;
    setStartIndex (g_index g) ;;;
    ret true.

(** cost_map.cpp:205-212: Eigen reads the element at this distance from the first
    one; [OutOfBounds] when that is outside the memory of the layer. *)
Definition nd_at (m : cmap) (l : string) (i : idx) : res Z :=
  match aget (data m) l with
  | None => Throw OutOfRange
  | Some d => let k := fst i + snd i * mrows d in
              if k <? 0 then Fault OutOfBounds else of_opt OutOfBounds (nth_error (mcoef d) (Z.to_nat k))
  end.

End Ndebug.
