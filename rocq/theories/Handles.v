(** Variables that hold circle, ellipse or polygon iterators. An iterator keeps its
    SubmapIterator behind a shared pointer (circle_iterator.hpp:92,
    ellipse_iterator.hpp:93, polygon_iterator.hpp:81), so the copies of an iterator
    share it. *)
From Coq Require Import ZArith QArith List Bool.
From Verif Require Import Base Mat GridMapMath GridIter CostMap Iterators.
Import ListNotations.
Open Scope Z_scope.

Section Handles.
Context {E : Env} (sqr : Q -> Q).

(** What the constructor is given, with the geometry of the map at that time. The
    other members of an iterator are computed from it once and copied with it. *)
Inductive shape :=
| Circle (m : cmap) (c : vec) (R : Q)
| Ellipse (m : cmap) (c L : vec) (cs sn : Q)
| Poly (m : cmap) (vs : list vec).

Definition shape_inside (sh : shape) : idx -> res bool :=
  match sh with
  | Circle m c R => circle_inside m c R
  | Ellipse m c L cs sn => ellipse_inside m c L cs sn
  | Poly m vs => polygon_inside m vs
  end.

(** The constructors: circle_iterator.cpp:16-31, ellipse_iterator.cpp:17-34,
    polygon_iterator.cpp:16-29. *)
Definition shape_new (sh : shape) : res sub_iter :=
  match sh with
  | Circle m c R => let '(s, n) := circle_window m c R in filt_new (shape_inside sh) (size m) (start m) s n
  | Ellipse m c L cs sn => let '(s, n) := ellipse_window sqr m c L cs sn in filt_new (shape_inside sh) (size m) (start m) s n
  | Poly m vs => rbind (polygon_window m vs) (fun '(s, n) => filt_new (shape_inside sh) (size m) (start m) s n)
  end.

(** A loop over a fresh iterator. *)
Definition shape_visits (sh : shape) : res (list idx) :=
  match sh with
  | Circle m c R => circle_visits m c R
  | Ellipse m c L cs sn => ellipse_visits sqr m c L cs sn
  | Poly m vs => polygon_visits m vs
  end.

(** The memory: the SubmapIterators made so far, and for each variable its own
    members and the pointer. *)
Record memory := Memory { heap : list sub_iter; vars : nat -> option (shape * nat) }.

Definition set_var (v : nat) (x : option (shape * nat)) (f : nat -> option (shape * nat)) : nat -> option (shape * nat) :=
  fun w => if Nat.eqb w v then x else f w.

Fixpoint set_nth {A} (n : nat) (x : A) (l : list A) : list A :=
  match l, n with
  | [], _ => []
  | _ :: t, O => x :: t
  | y :: t, S k => y :: set_nth k x t
  end.

Inductive call :=
| New (v : nat) (sh : shape)   (* v = Iterator(map, ...) *)
| Assign (v w : nat)           (* v = w, or the declaration of v as a copy of w *)
| Next (v : nat).              (* ++v *)

(** Copy constructor (implicit) and operator=: circle_iterator.cpp:33-45,
    ellipse_iterator.cpp:36-48, polygon_iterator.cpp:31-41; operator++:
    circle_iterator.cpp:57-67 and so on. The old SubmapIterator of an assigned
    variable is left in the memory; nothing refers to it any more. *)
Definition call_step (k : call) (s : memory) : res memory :=
  match k with
  | New v sh => rbind (shape_new sh) (fun it =>
      Ok (Memory (heap s ++ [it]) (set_var v (Some (sh, List.length (heap s))) (vars s))))
  | Assign v w =>
      match vars s w with
      | None => Fault Uninit
      | Some h => Ok (Memory (heap s) (set_var v (Some h) (vars s)))
      end
  | Next v =>
      match vars s v with
      | None => Fault Uninit
      | Some (sh, a) =>
          match nth_error (heap s) a with
          | None => Fault OutOfBounds
          | Some it => rbind (filt_next (shape_inside sh) it) (fun it' => Ok (Memory (set_nth a it' (heap s)) (vars s)))
          end
      end
  end.

Fixpoint calls_run (ks : list call) (s : memory) : res memory :=
  match ks with [] => Ok s | k :: t => rbind (call_step k s) (calls_run t) end.

Definition no_memory : memory := Memory [] (fun _ => None).

Definition pointee (s : memory) (v : nat) : res sub_iter :=
  match vars s v with
  | None => Fault Uninit
  | Some (_, a) => match nth_error (heap s) a with None => Fault OutOfBounds | Some it => Ok it end
  end.

(** operator*: circle_iterator.cpp:52-55, ellipse_iterator.cpp:55-58,
    polygon_iterator.cpp:48-51 *)
Definition deref (s : memory) (v : nat) : res idx := rbind (pointee s v) (fun it => Ok (sb_index it)).

(** isPastEnd: circle_iterator.cpp:69-72, ellipse_iterator.cpp:72-75,
    polygon_iterator.cpp:65-68 *)
Definition is_past (s : memory) (v : nat) : res bool := rbind (pointee s v) (fun it => Ok (sb_past it)).

(** operator!= compares the pointers: circle_iterator.cpp:47-50,
    ellipse_iterator.cpp:50-53, polygon_iterator.cpp:43-46 *)
Definition differs (s : memory) (v w : nat) : res bool :=
  match vars s v, vars s w with
  | Some (_, a), Some (_, b) => Ok (negb (Nat.eqb a b))
  | _, _ => Fault Uninit
  end.

End Handles.
