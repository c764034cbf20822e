(** Inflation with a cost computer that may throw. *)
From Coq Require Import ZArith QArith String List Bool.
From Verif Require Import Base Mat CostMap Inflation.
Import ListNotations.
Open Scope Z_scope.

(** How a call ends, with the object and the map it leaves behind. [Thrown] is the
    exception of the computer, [Missing] that of the map. *)
Inductive ending (P : pqueue) :=
| Done (o : inflater P) (m : cmap)
| Thrown (o : inflater P) (m : cmap)
| Missing (e : exn) (o : inflater P) (m : cmap)
| Undefined (f : fault).
Arguments Done {P} _ _.
Arguments Thrown {P} _ _.
Arguments Missing {P} _ _ _.
Arguments Undefined {P} _.

Section Throwing.
Context {E : Env} (F : fenv) (P : pqueue).

(** inflation.cpp:142-146: the entries of the table in the order of the loops. *)
Definition entries (r : Z) : list idx := flat_map (fun i => map (fun j => (i, j)) (zseq (r + 2))) (zseq (r + 2)).
Definition earlier (a b : idx) : bool := (fst a <? fst b) || (fst a =? fst b) && (snd a <? snd b).

(** inflation.cpp:131-147. The computer gives [None] when it throws; then that entry
    and all later ones keep what the new memory of the table holds, [g]. The
    result also says whether the loop came to its end. *)
Definition compute_caches' (g : Z -> Z -> Z) (r : Z) (resolution : Q) (comp : Q -> option Z) : res (cache * bool) :=
  let dim := (r + 2) mod 2 ^ 32 in
  let at_entry i j := comp (f32 F (resolution * hyp F i j)) in
  let cost i j := match at_entry i j with Some v => v | None => 0 end in
  if (r + 1) mod 2 ^ 32 <? dim
  then match find (fun e => match at_entry (fst e) (snd e) with None => true | Some _ => false end) (entries r) with
       | None => Ok (Cache r dim (hyp F) cost, true)
       | Some e => Ok (Cache r dim (hyp F) (fun i j => if earlier (i, j) e then cost i j else g i j), false)
       end
  else Fault OutOfBounds.

(** inflation.cpp:21-82 *)
Definition inflate' (g : Z -> Z -> Z) (ls ld : string) (rad : Q) (comp : Q -> option Z) (o : inflater P) (m : cmap) : ending P :=
  match get m ls with
  | Throw e => Missing e o m
  | Fault f => Undefined f
  | Ok src =>
      match add ld src m with
      | Exn e m1 => Missing e o m1
      | Flt f => Undefined f
      | Ret _ m1 =>
          match rbind (cell_radius rad m1) (fun r =>
                if r =? c_rad (if_cache o) then Ok (if_cache o, true)
                else compute_caches' g r (f32 F (resn m1)) comp) with
          | Throw e => Missing e o m1
          | Fault f => Undefined f
          | Ok (c, false) => Thrown (Inflater c (if_queue o)) m1
          | Ok (c, true) =>
              match bind (scan P c ls ld (mrows src) (mcols src))
                      (fun _ => brushfire P c ls ld (size m) (Z.to_nat (fst (size m) * snd (size m))))
                      (IState m1 (mconst (fst (size m)) (snd (size m)) 0) (if_queue o)) with
              | Ret _ st => Done (Inflater c (is_queue st)) (is_map st)
              | Exn e st => Missing e (Inflater c (is_queue st)) (is_map st)
              | Flt f => Undefined f
              end
          end
      end
  end.

End Throwing.
