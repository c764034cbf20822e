(** Histories of public mutating calls on one map. *)
From Coq Require Import ZArith QArith String List Bool.
From Verif Require Import Base Mat GridMapMath GridIter CostMap.
Import ListNotations.

Inductive op :=
| OpAdd (l : string) (d : mat)
| OpAddValue (l : string) (v : Z)
| OpErase (l : string)
| OpClear (l : string)
| OpClearBasic
| OpClearAll
| OpSetGeometry (l : vec) (r : Q) (p : vec)
| OpSetBasicLayers (b : list string)
| OpAt (l : string) (i : idx) (v : Z)
| OpAtPosition (l : string) (p : vec) (v : Z)
| OpMove (p : vec)
| OpExtend (other : cmap)
| OpAddDataFrom (other : cmap) (extend overwrite copyAll : bool) (ls : list string)
| OpSetTimestamp (t : Z)
| OpResetTimestamp
| OpSetFrameId (f : string)
| OpSetStartIndex (s : idx)
| OpSetPosition (p : vec).

(** Matrices handed to add() are genuine matrices: as many coefficients as
    rows times columns. *)
Definition op_ok (o : op) : Prop := match o with OpAdd _ d => wf_mat d | _ => True end.

Definition ignore {S A} (m : M S A) : M S unit := bind m (fun _ => ret tt).

Definition run_op {E : Env} (o : op) : M cmap unit :=
  match o with
  | OpAdd l d => add l d
  | OpAddValue l v => add_value l v
  | OpErase l => ignore (erase l)
  | OpClear l => clear l
  | OpClearBasic => clearBasic
  | OpClearAll => clearAll
  | OpSetGeometry l r p => setGeometry l r p
  | OpSetBasicLayers b => setBasicLayers b
  | OpAt l i v => at_set l i v
  | OpAtPosition l p v => atPosition_set l p v
  | OpMove p => ignore (move p)
  | OpExtend o => ignore (extendToInclude o)
  | OpAddDataFrom o e w c ls => ignore (addDataFrom o e w c ls)
  | OpSetTimestamp t => setTimestamp t
  | OpResetTimestamp => resetTimestamp
  | OpSetFrameId f => setFrameId f
  | OpSetStartIndex s => setStartIndex s
  | OpSetPosition p => setPosition p
  end.

(** One call: it may return normally or raise an exception the caller catches. *)
Definition step {E : Env} (o : op) (m m' : cmap) : Prop :=
  run_op o m = Ret tt m' \/ exists e, run_op o m = Exn e m'.

(** Any finite sequence of calls. *)
Inductive reach {E : Env} (m : cmap) : cmap -> Prop :=
| reach_refl : reach m m
| reach_step o m1 m2 : reach m m1 -> op_ok o -> step o m1 m2 -> reach m m2.

(** [move_trace m tr m']: m' results from m by the successive moves to the
    positions listed in tr, each paired with the map it was called on. *)
Inductive move_trace {E : Env} (m : cmap) : list (cmap * vec) -> cmap -> Prop :=
| mt_nil : move_trace m [] m
| mt_snoc tr m1 p b rs m2 : move_trace m tr m1 -> move p m1 = Ret (b, rs) m2 ->
    move_trace m (tr ++ [(m1, p)]) m2.
