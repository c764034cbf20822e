(** Outcomes, rational arithmetic with explicit rounding, and small list tools
    shared by the whole model. *)
From Coq Require Import ZArith QArith Qround Qabs Qreduction String List Bool Lia.
Import ListNotations.
Open Scope Z_scope.

(* ------------------------------------------------------------------ *)
(** ** Outcomes *)

(** C++ exceptions that the modelled code can raise. *)
Inductive exn :=
| OutOfRange        (* std::out_of_range *)
| RuntimeError      (* std::runtime_error *)
| InvalidArgument   (* std::invalid_argument *)
| BadFile           (* YAML::BadFile and the like *)
| LogicError.       (* std::logic_error *)

(** Everything the C++ program must never do: a failed assert(), an
    out-of-bounds access of an Eigen matrix or a std::vector, a read of an
    uninitialised variable, an out-of-range float to integer conversion, an
    integer division by zero.
    [OutOfFuel] is the model's own marker for a loop that did not stop within
    the fuel given to it. *)
Inductive fault := AssertFailed | OutOfBounds | Uninit | BadCast | DivByZero | OutOfFuel.

(** Outcome of a const function. *)
Inductive res (A : Type) :=
| Ok (a : A)
| Throw (e : exn)
| Fault (f : fault).
Arguments Ok {A} _.
Arguments Throw {A} _.
Arguments Fault {A} _.

Definition rbind {A B} (x : res A) (f : A -> res B) : res B :=
  match x with Ok a => f a | Throw e => Throw e | Fault t => Fault t end.

Declare Scope res_scope.
Delimit Scope res_scope with res.
Notation "x <-- c ;; k" := (rbind c (fun x => k))
  (at level 100, c at next level, right associativity) : res_scope.

Definition of_opt {A} (f : fault) (o : option A) : res A :=
  match o with Some a => Ok a | None => Fault f end.

(** Outcome of a mutating function on a state [S]: an exception leaves the
    state as it was when the exception was raised. *)
Inductive out (S A : Type) :=
| Ret (a : A) (s : S)
| Exn (e : exn) (s : S)
| Flt (f : fault).
Arguments Ret {S A} _ _.
Arguments Exn {S A} _ _.
Arguments Flt {S A} _.

Definition M (S A : Type) := S -> out S A.

Definition ret {S A} (a : A) : M S A := fun s => Ret a s.
Definition bind {S A B} (m : M S A) (f : A -> M S B) : M S B :=
  fun s => match m s with
           | Ret a s' => f a s'
           | Exn e s' => Exn e s'
           | Flt t => Flt t
           end.
Definition throw {S A} (e : exn) : M S A := fun s => Exn e s.
Definition abort {S A} (f : fault) : M S A := fun _ => Flt f.
Definition get_st {S} : M S S := fun s => Ret s s.
Definition put_st {S} (s : S) : M S unit := fun _ => Ret tt s.
Definition lift {S A} (r : res A) : M S A :=
  fun s => match r with Ok a => Ret a s | Throw e => Exn e s | Fault f => Flt f end.

Declare Scope mon_scope.
Delimit Scope mon_scope with mon.
Notation "x <- c ;; k" := (bind c (fun x => k))
  (at level 100, c at next level, right associativity) : mon_scope.
Notation "c ;;; k" := (bind c (fun _ => k))
  (at level 100, right associativity) : mon_scope.

(** [for (x : l) body(x)] *)
Fixpoint mfor {S A} (l : list A) (body : A -> M S unit) : M S unit :=
  match l with
  | [] => ret tt
  | x :: l' => fun s => match body x s with
                        | Ret _ s' => mfor l' body s'
                        | Exn e s' => Exn e s'
                        | Flt t => Flt t
                        end
  end.

(* ------------------------------------------------------------------ *)
(** ** Integers and rationals *)

(** The list [a; a+1; ...; a+n-1]. *)
Fixpoint zseq_aux (a : Z) (n : nat) : list Z :=
  match n with O => [] | S n' => a :: zseq_aux (a + 1) n' end.
Definition zseq (n : Z) : list Z := zseq_aux 0 (Z.to_nat n).

(** Conversion of a floating value to int: truncation towards zero. *)
Definition Qtrunc (q : Q) : Z := Z.quot (Qnum q) (Zpos (Qden q)).

(** C's round(): nearest integer, halves away from zero. *)
Definition Qround_away (q : Q) : Z :=
  if Qle_bool 0 q then Qfloor (q + (1#2)) else - Qfloor (- q + (1#2)).

Definition Qlt_bool (a b : Q) : bool := negb (Qle_bool b a).

Definition Qmin (a b : Q) : Q := if Qle_bool a b then a else b.
Definition Qmax (a b : Q) : Q := if Qle_bool a b then b else a.

(** How grid_map::boundIndexToRange treats an index outside [0,n):
    grid_map >= 1.6 clamps, earlier releases wrapped around. *)
Inductive bpolicy := BClamp | BWrap.

(** Environment of the model: the rounding applied after every floating point
    operation, and the index bounding policy of the grid_map release. *)
Class Env := { rnd : Q -> Q; bpol : bpolicy }.

(** Floating point operations: exact operation followed by rounding. *)
Section Float.
Context {E : Env}.
Definition fadd (a b : Q) : Q := rnd (a + b).
Definition fsub (a b : Q) : Q := rnd (a - b).
Definition fmul (a b : Q) : Q := rnd (a * b).
Definition fdiv (a b : Q) : Q := rnd (a / b).
End Float.

(** Exact real arithmetic. *)
Definition Exact (E : Env) : Prop := forall x : Q, (rnd x == x)%Q.

(** Environments that compute: exact arithmetic with normalised fractions. *)
Definition exact_wrap : Env := {| rnd := Qred; bpol := BWrap |}.
Definition exact_clamp : Env := {| rnd := Qred; bpol := BClamp |}.

(** Rounding to nearest, ties to even, with [p] significant bits and unbounded
    exponent (no overflow, no subnormals). *)
Definition Zrne (n d : Z) : Z :=
  let q := n / d in
  let r := n mod d in
  match Z.compare (2 * r) d with
  | Lt => q
  | Gt => q + 1
  | Eq => if Z.even q then q else q + 1
  end.

(** Largest e with 2^e <= |q|, for q <> 0. *)
Definition Qlog2 (q : Q) : Z :=
  let n := Z.abs (Qnum q) in
  let d := Zpos (Qden q) in
  let e := Z.log2 n - Z.log2 d in
  if Z.leb 0 e
  then (if Z.leb (d * 2 ^ e) n then e else e - 1)
  else (if Z.leb d (n * 2 ^ (- e)) then e else e - 1).

Definition rne (p : Z) (q : Q) : Q :=
  if Z.eqb (Qnum q) 0 then 0%Q
  else
    let e := Qlog2 q - (p - 1) in
    let n := Qnum q in
    let d := Zpos (Qden q) in
    if Z.leb 0 e
    then inject_Z (Zrne n (d * 2 ^ e) * 2 ^ e)
    else Qred (Qmake (Zrne (n * 2 ^ (- e)) d) (Z.to_pos (2 ^ (- e)))).

(** Rounding to float (binary32). *)
Definition rnd32 (q : Q) : Q := rne 24 q.

Definition binary64 (p : bpolicy) : Env := {| rnd := rne 53; bpol := p |}.

(** Exact arithmetic or doubles. *)
Definition real_or_double (E : Env) : Prop := Exact E \/ exists p, E = binary64 p.

(** Index and position pairs. *)
Definition idx := (Z * Z)%type.
Definition vec := (Q * Q)%type.
Definition idx_eqb (a b : idx) : bool := (fst a =? fst b) && (snd a =? snd b).
Definition veq (a b : vec) : Prop := (fst a == fst b)%Q /\ (snd a == snd b)%Q.
