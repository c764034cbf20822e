(** Inflation with a cost computer that has a state of its own. *)
From Coq Require Import ZArith QArith String List Bool.
From Verif Require Import Base Mat CostMap Inflation Throwing.
Import ListNotations.
Open Scope Z_scope.

Section Effects.
Context {E : Env} (F : fenv) (P : pqueue) {S : Type}.

(** A computer with state S: the state after the call, and the cost, or [None] if it
    throws. (The interface has a const operator(), but a computer may have mutable
    members or refer to other objects.) *)
Definition computer := S -> Q -> S * option Z.

Definition tset (t : Z -> Z -> Z) (e : idx) (v : Z) : Z -> Z -> Z :=
  fun i j => if (i =? fst e) && (j =? snd e) then v else t i j.

(** inflation.cpp:142-146: the loops over the entries. The result says whether they
    came to their end. *)
Fixpoint fill (resolution : Q) (comp : computer) (es : list idx) (t : Z -> Z -> Z) (s : S) : (Z -> Z -> Z) * bool * S :=
  match es with
  | [] => (t, true, s)
  | e :: rest =>
      match comp s (f32 F (resolution * hyp F (fst e) (snd e))) with
      | (s', None) => (t, false, s')
      | (s', Some v) => fill resolution comp rest (tset t e v) s'
      end
  end.

(** inflation.cpp:131-147; [g] is what the new memory of the table holds. *)
Definition compute_caches_s (g : Z -> Z -> Z) (r : Z) (resolution : Q) (comp : computer) (s : S) : res (cache * bool * S) :=
  let dim := (r + 2) mod 2 ^ 32 in
  if (r + 1) mod 2 ^ 32 <? dim
  then let '(t, b, s') := fill resolution comp (entries r) g s in Ok (Cache r dim (hyp F) t, b, s')
  else Fault OutOfBounds.

(** inflation.cpp:21-82 *)
Definition inflate_s (g : Z -> Z -> Z) (ls ld : string) (rad : Q) (comp : computer) (o : inflater P) (m : cmap) (s : S) : ending P * S :=
  match get m ls with
  | Throw e => (Missing e o m, s)
  | Fault f => (Undefined f, s)
  | Ok src =>
      match add ld src m with
      | Exn e m1 => (Missing e o m1, s)
      | Flt f => (Undefined f, s)
      | Ret _ m1 =>
          match rbind (cell_radius rad m1) (fun r =>
                if r =? c_rad (if_cache o) then Ok (if_cache o, true, s)
                else compute_caches_s g r (f32 F (resn m1)) comp s) with
          | Throw e => (Missing e o m1, s)
          | Fault f => (Undefined f, s)
          | Ok (c, false, s') => (Thrown (Inflater c (if_queue o)) m1, s')
          | Ok (c, true, s') =>
              (match bind (scan P c ls ld (mrows src) (mcols src))
                      (fun _ => brushfire P c ls ld (size m) (Z.to_nat (fst (size m) * snd (size m))))
                      (IState m1 (mconst (fst (size m)) (snd (size m)) 0) (if_queue o)) with
              | Ret _ st => Done (Inflater c (is_queue st)) (is_map st)
              | Exn e st => Missing e (Inflater c (is_queue st)) (is_map st)
              | Flt f => Undefined f
              end, s')
          end
      end
  end.

End Effects.
