(** Inflation and deflation of layers
    (cost_map_core/include/cost_map_core/operators/inflation.hpp and
     cost_map_core/src/lib/operators/inflation.cpp, cited as inflation.cpp). *)
From Coq Require Import ZArith QArith Qround String List Bool Permutation.
From Verif Require Import Base Mat CostMap.
Import ListNotations.
Open Scope Z_scope.

(** Single precision: rounding of a result to float, and the entry (i, j) of
    cached_distances_, i.e. std::hypot(i, j) stored in a float matrix. *)
Record fenv := FEnv { f32 : Q -> Q; hyp : Z -> Z -> Q }.

(** inflation.hpp:99-123, CellData. *)
Record qcell := QCell { q_dist : Q; q_at : idx; q_src : idx }.

(** std::priority_queue<CellData>. Which of several cells with the same distance
    comes first is not specified; a queue is described by its operations. *)
Record pqueue := PQueue
  { pq : Type; pq_empty : pq; pq_push : qcell -> pq -> pq; pq_pop : pq -> option (qcell * pq) }.

(** inflation.hpp:160-164: the distance and cost tables, both c_dim x c_dim,
    together with cell_inflation_radius_. A table is the function that was
    evaluated to fill it; indices are checked by [lookup]. *)
Record cache := Cache { c_rad : Z; c_dim : Z; c_dist : Z -> Z -> Q; c_cost : Z -> Z -> Z }.

(** inflation.cpp:117-129, distanceLookup and costLookup. The conversion of
    the unsigned arguments to int is exact: coordinates are below the size of the
    map, which is an int. *)
Definition lookup {A} (c : cache) (t : Z -> Z -> A) (a b : idx) : res A :=
  let dx := Z.abs (fst a - fst b) in let dy := Z.abs (snd a - snd b) in
  if (dx <? c_dim c) && (dy <? c_dim c) then Ok (t dx dy) else Fault OutOfBounds.

Section Inflation.
Context {E : Env} (F : fenv) (P : pqueue).

(** inflation.cpp:131-147, computeCaches. Unsigned 32-bit arithmetic; the loops
    run up to radius + 1, which is outside the tables if radius + 2 wraps to 0.
    The resolution has been converted to float. Not modelled: failing
    allocations. Computers that throw: Throwing.v; with a state: Effects.v. *)
Definition compute_caches (r : Z) (resolution : Q) (comp : Q -> Z) : res cache :=
  let dim := (r + 2) mod 2 ^ 32 in
  if (r + 1) mod 2 ^ 32 <? dim
  then Ok (Cache r dim (hyp F) (fun i j => comp (f32 F (resolution * hyp F i j))))
  else Fault OutOfBounds.

(** inflation.hpp:77-79 and 160-164: an Inflate object. seen_ is reset by each call. *)
Record inflater := Inflater { if_cache : cache; if_queue : pq P }.
Definition new_inflater : inflater :=
  Inflater (Cache (2 ^ 32 - 1) 0 (fun _ _ => 0%Q) (fun _ _ => 0)) (pq_empty P).

(** The variable parts of a run: the map, seen_ (0 or 1) and the queue. *)
Record istate := IState { is_map : cmap; is_seen : mat; is_queue : pq P }.

(** inflation.cpp:38: the radius in cells. Division by a resolution of 0 gives
    an infinity, or NaN, for which std::max returns its first argument. *)
Definition cell_radius (rad : Q) (m : cmap) : res Z :=
  if Qeq_bool (resn m) 0 then (if Qlt_bool 0 rad then Fault BadCast else Ok 0)
  else let k := Z.max 0 (Qceiling (fdiv rad (resn m))) in
       if 2 ^ 32 <=? k then Fault BadCast else Ok k.

(** inflation.cpp:105-108 *)
Definition combine (old cost : Z) : Z :=
  if (old =? NO_INFORMATION) && (INSCRIBED_OBSTACLE <=? cost) then cost else Z.max old cost.

(** inflation.cpp:84-115, enqueue, with the two layers read by name as in the
    calls (inflation.cpp:51, 70-79), so that they may be the same. *)
Definition enqueue (c : cache) (ls ld : string) (n s : idx) : M istate unit := fun st =>
  match mget (is_seen st) (fst n) (snd n) with
  | None => Flt OutOfBounds
  | Some b =>
      if b =? 0 then
        match lookup c (c_dist c) n s with
        | Throw e => Exn e st
        | Fault f => Flt f
        | Ok d =>
            if Qlt_bool (inject_Z (c_rad c)) d then Ret tt st
            else
              match lookup c (c_cost c) n s, at_ (is_map st) ls n with
              | Ok v, Ok old =>
                  match at_set ld n (combine old v) (is_map st), mset (is_seen st) (fst n) (snd n) 1 with
                  | Ret _ m', Some seen' => Ret tt (IState m' seen' (pq_push P (QCell d n s) (is_queue st)))
                  | Exn e m', _ => Exn e (IState m' (is_seen st) (is_queue st))
                  | Flt f, _ => Flt f
                  | _, None => Flt OutOfBounds
                  end
              | Throw e, _ | _, Throw e => Exn e st
              | Fault f, _ | _, Fault f => Flt f
              end
        end
      else Ret tt st
  end.

(** inflation.cpp:46-54 *)
Definition scan (c : cache) (ls ld : string) (rows cols : Z) : M istate unit :=
  mfor (zseq cols) (fun j => mfor (zseq rows) (fun i st =>
    match at_ (is_map st) ls (i, j) with
    | Throw e => Exn e st
    | Fault f => Flt f
    | Ok cost => if cost =? LETHAL_OBSTACLE then enqueue c ls ld (i, j) (i, j) st else Ret tt st
    end)).

(** inflation.cpp:69-80: the neighbours of a popped cell. *)
Definition spread (c : cache) (ls ld : string) (sz : idx) (q : qcell) : M istate unit :=
  (let x := fst (q_at q) in let y := snd (q_at q) in
   (if 0 <? x then enqueue c ls ld (x - 1, y) (q_src q) else ret tt) ;;;
   (if 0 <? y then enqueue c ls ld (x, y - 1) (q_src q) else ret tt) ;;;
   (if x <? fst sz - 1 then enqueue c ls ld (x + 1, y) (q_src q) else ret tt) ;;;
   (if y <? snd sz - 1 then enqueue c ls ld (x, y + 1) (q_src q) else ret tt))%mon.

(** inflation.cpp:55-81 *)
Fixpoint brushfire (c : cache) (ls ld : string) (sz : idx) (fuel : nat) : M istate unit := fun st =>
  match pq_pop P (is_queue st) with
  | None => Ret tt st
  | Some (q, rest) =>
      match fuel with
      | O => Flt OutOfFuel
      | S f => bind (spread c ls ld sz q) (fun _ => brushfire c ls ld sz f)
                 (IState (is_map st) (is_seen st) rest)
      end
  end.

(** inflation.cpp:21-82, Inflate::operator(). The loop gets as much fuel as
    there are cells: at most that many pops. *)
Definition inflate (ls ld : string) (rad : Q) (comp : Q -> Z) (o : inflater) : M cmap inflater := fun m =>
  match get m ls with
  | Throw e => Exn e m
  | Fault f => Flt f
  | Ok src =>
      match add ld src m with
      | Exn e m1 => Exn e m1
      | Flt f => Flt f
      | Ret _ m1 =>
          match rbind (cell_radius rad m1) (fun r =>
                if r =? c_rad (if_cache o) then Ok (if_cache o)
                else compute_caches r (f32 F (resn m1)) comp) with
          | Throw e => Exn e m1
          | Fault f => Flt f
          | Ok c =>
              match bind (scan c ls ld (mrows src) (mcols src))
                      (fun _ => brushfire c ls ld (size m) (Z.to_nat (fst (size m) * snd (size m))))
                      (IState m1 (mconst (fst (size m)) (snd (size m)) 0) (if_queue o)) with
              | Ret _ st => Ret (Inflater c (is_queue st)) (is_map st)
              | Exn e st => Exn e (is_map st)
              | Flt f => Flt f
              end
          end
      end
  end.

(** inflation.cpp:161-174, ROSInflationComputer::operator(). [ex] is std::exp on
    double. The difference is computed in float, the rest in double. *)
Definition ros_cost (ex : Q -> Q) (inscribed_radius weight distance : Q) : res Z :=
  if Qeq_bool distance 0 then Ok LETHAL_OBSTACLE
  else if Qle_bool distance inscribed_radius then Ok INSCRIBED_OBSTACLE
  else to_uchar (fmul (inject_Z (INSCRIBED_OBSTACLE - 1))
                      (ex (fmul (fmul (-(1)) weight) (f32 F (distance - inscribed_radius))))).

(** inflation.cpp:185-206, Deflate::operator(). *)
Definition deflate (keep_inscribed : bool) (ls ld : string) : M cmap unit := fun m =>
  match get m ls with
  | Throw e => Exn e m
  | Fault f => Flt f
  | Ok src =>
      let threshold := if keep_inscribed then INSCRIBED_OBSTACLE else LETHAL_OBSTACLE in
      (add_value ld NO_INFORMATION ;;;
       mfor (zseq (mcols src)) (fun j => mfor (zseq (mrows src)) (fun i m' =>
         match mget src i j with
         | None => Flt OutOfBounds
         | Some cost => at_set ld (i, j) (if threshold <=? cost then cost else FREE_SPACE) m'
         end)))%mon m
  end.
End Inflation.

Arguments Inflater {P} _ _.
Arguments if_cache {P} _.
Arguments if_queue {P} _.
Arguments IState {P} _ _ _.
Arguments is_map {P} _.
Arguments is_seen {P} _.
Arguments is_queue {P} _.
