(** Matrices (Eigen::Matrix<unsigned char, Dynamic, Dynamic>, column-major) and
    name-indexed collections (std::unordered_map<std::string, Matrix>). *)
From Coq Require Import ZArith String List Bool Lia.
From Verif Require Import Base.
Import ListNotations.
Open Scope Z_scope.

(** cost_map_core/include/cost_map_core/common.hpp: Matrix. Cells are cost
    values, i.e. integers meant to be in 0..255. *)
Record mat := Mat { mrows : Z; mcols : Z; mcoef : list Z }.

Definition in_mat (m : mat) (i j : Z) : bool :=
  (0 <=? i) && (i <? mrows m) && (0 <=? j) && (j <? mcols m).

(** m(i,j), with Eigen's range assertion: None out of range. *)
Definition mget (m : mat) (i j : Z) : option Z :=
  if in_mat m i j then nth_error (mcoef m) (Z.to_nat (i + j * mrows m)) else None.

Fixpoint lupd {A} (l : list A) (n : nat) (v : A) : list A :=
  match l, n with
  | [], _ => []
  | _ :: t, O => v :: t
  | h :: t, S n' => h :: lupd t n' v
  end.

(** m(i,j) = v. *)
Definition mset (m : mat) (i j v : Z) : option mat :=
  if in_mat m i j
  then Some (Mat (mrows m) (mcols m) (lupd (mcoef m) (Z.to_nat (i + j * mrows m)) v))
  else None.

(** The r x c matrix with coefficient f i j at (i,j). *)
Definition mbuild (r c : Z) (f : Z -> Z -> Z) : mat :=
  Mat r c (map (fun k => f (k mod r) (k / r)) (zseq (r * c))).

(** Matrix::Constant(r, c, v). *)
Definition mconst (r c v : Z) : mat := Mat r c (repeat v (Z.to_nat (r * c))).

(** m.block(i, j, h, w) stays inside m: Eigen's block assertion. *)
Definition block_ok (m : mat) (i j h w : Z) : bool :=
  (0 <=? i) && (0 <=? h) && (i + h <=? mrows m) &&
  (0 <=? j) && (0 <=? w) && (j + w <=? mcols m).

Definition in_block (i0 j0 h w i j : Z) : bool :=
  (i0 <=? i) && (i <? i0 + h) && (j0 <=? j) && (j <? j0 + w).

Definition cell (m : mat) (i j : Z) : Z :=
  match mget m i j with Some v => v | None => 0 end.

(** m.block(i0, j0, h, w).setConstant(v). *)
Definition mfill (m : mat) (i0 j0 h w v : Z) : option mat :=
  if block_ok m i0 j0 h w
  then Some (mbuild (mrows m) (mcols m)
               (fun i j => if in_block i0 j0 h w i j then v else cell m i j))
  else None.

(** dst.block(di, dj, h, w) = src.block(si, sj, h, w). *)
Definition mcopy (dst : mat) (di dj : Z) (src : mat) (si sj h w : Z) : option mat :=
  if block_ok dst di dj h w && block_ok src si sj h w
  then Some (mbuild (mrows dst) (mcols dst)
               (fun i j => if in_block di dj h w i j
                           then cell src (si + (i - di)) (sj + (j - dj))
                           else cell dst i j))
  else None.

Definition wf_mat (m : mat) : Prop :=
  0 <= mrows m /\ 0 <= mcols m /\ Z.of_nat (length (mcoef m)) = mrows m * mcols m.

(* ------------------------------------------------------------------ *)
(** ** Name-indexed collections *)

Fixpoint aget {A} (d : list (string * A)) (k : string) : option A :=
  match d with
  | [] => None
  | (k', v) :: d' => if String.eqb k k' then Some v else aget d' k
  end.

Definition amem {A} (d : list (string * A)) (k : string) : bool :=
  match aget d k with Some _ => true | None => false end.

(** d.at(k) = v for an existing key (no effect on an absent key). *)
Fixpoint aset {A} (d : list (string * A)) (k : string) (v : A) : list (string * A) :=
  match d with
  | [] => []
  | (k', v') :: d' => if String.eqb k k' then (k', v) :: d' else (k', v') :: aset d' k v
  end.

(** d.insert({k, v}): no effect on an existing key. *)
Definition ainsert {A} (d : list (string * A)) (k : string) (v : A) : list (string * A) :=
  if amem d k then d else d ++ [(k, v)].

(** d.erase(k). *)
Fixpoint adel {A} (d : list (string * A)) (k : string) : list (string * A) :=
  match d with
  | [] => []
  | (k', v') :: d' => if String.eqb k k' then d' else (k', v') :: adel d' k
  end.

Definition akeys {A} (d : list (string * A)) : list string := map fst d.

(** std::find + vector::erase: remove the first occurrence. *)
Fixpoint remove_first (k : string) (l : list string) : list string :=
  match l with
  | [] => []
  | x :: t => if String.eqb k x then t else x :: remove_first k t
  end.

(** std::find(l.begin(), l.end(), k) != l.end(). *)
Definition smem (k : string) (l : list string) : bool := existsb (String.eqb k) l.
