(** Positions, lengths and radii that are infinite or not a number, and results that
    overflow. The functions of GridMapMath.v, CostMap.v, Iterators.v and Inflation.v that
    take such values, again, over doubles with infinities and NaN. *)
From Coq Require Import ZArith QArith Qround Qabs String List Bool.
From Verif Require Import Base Mat GridMapMath GridIter CostMap Iterators.
Import ListNotations.
Open Scope Z_scope.

(** A double. The sign of zero is left out: it matters only for division by zero, where
    zero is taken as positive. *)
Inductive num := Fin (q : Q) | Inf (neg : bool) | NaN.
Definition pair2 : Type := num * num.
Definition fin2 (p : vec) : pair2 := (Fin (fst p), Fin (snd p)).

Definition negative (q : Q) : bool := Qlt_bool q 0.
Definition nneg (a : num) : num := match a with Fin q => Fin (Qopp q) | Inf s => Inf (negb s) | NaN => NaN end.

(** Comparisons are false for NaN. *)
Definition nle (a b : num) : bool :=
  match a, b with
  | NaN, _ | _, NaN => false
  | Fin x, Fin y => Qle_bool x y
  | Inf true, _ | _, Inf false => true
  | Inf false, _ | _, Inf true => false
  end.
Definition nlt (a b : num) : bool :=
  match a, b with
  | NaN, _ | _, NaN => false
  | _, _ => negb (nle b a)
  end.

(** std::max(a, b) *)
Definition nmax (a b : num) : num := if nlt a b then b else a.

Section NonFinite.
Context {E : Env}.
(** Results of this magnitude, after rounding with unbounded exponent, are infinite: 2^1024 for doubles. *)
Context (top : Q).
(** The conversion to int: undefined for values that are no int. *)
Context (conv : num -> res Z).
(** The square root of finite numbers. *)
Context (sqr : Q -> Q).

Definition nrnd (q : Q) : num :=
  let r := rnd q in if Qle_bool top (Qabs r) then Inf (negative r) else Fin r.

Definition nadd (a b : num) : num :=
  match a, b with
  | NaN, _ | _, NaN => NaN
  | Fin x, Fin y => nrnd (x + y)
  | Inf s, Inf t => if Bool.eqb s t then Inf s else NaN
  | Inf s, Fin _ | Fin _, Inf s => Inf s
  end.
Definition nsub (a b : num) : num := nadd a (nneg b).
Definition nmul (a b : num) : num :=
  match a, b with
  | NaN, _ | _, NaN => NaN
  | Fin x, Fin y => nrnd (x * y)
  | Inf s, Inf t => Inf (xorb s t)
  | Inf s, Fin x | Fin x, Inf s => if Qeq_bool x 0 then NaN else Inf (xorb s (negative x))
  end.
Definition ndiv (a b : num) : num :=
  match a, b with
  | NaN, _ | _, NaN => NaN
  | Fin x, Fin y => if Qeq_bool y 0 then (if Qeq_bool x 0 then NaN else Inf (negative x)) else nrnd (x / y)
  | Inf s, Inf t => NaN
  | Inf s, Fin x => Inf (xorb s (negative x))
  | Fin _, Inf _ => Fin 0
  end.
Definition nround (a : num) : num := match a with Fin q => Fin (inject_Z (Qround_away q)) | _ => a end.
Definition nceil (a : num) : num := match a with Fin q => Fin (inject_Z (Qceiling q)) | _ => a end.
Definition nsqrt (a : num) : num := match a with Fin q => Fin (sqr q) | Inf false => Inf false | _ => NaN end.
Definition half : num := Fin (1#2).

(** A map whose geometry consists of any doubles; len, resn and pos of [xcells] are not used. *)
Record xmap := XMap { xcells : cmap; xlen : pair2; xres : num; xpos : pair2 }.

(** CostMap::setPosition, cost_map.hpp:76 *)
Definition xsetPosition (p : pair2) : M xmap unit := fun X => Ret tt (XMap (xcells X) (xlen X) (xres X) p).

(** checkIfPositionWithinMap; CostMap::isInside, cost_map.cpp:224-227 *)
Definition xwithin1 (p L c : num) : bool :=
  let t := nneg (nsub (nsub p c) (nmul half L)) in nle (Fin 0) t && nlt t L.
Definition xisInside (X : xmap) (p : pair2) : bool :=
  xwithin1 (fst p) (fst (xlen X)) (fst (xpos X)) && xwithin1 (snd p) (snd (xlen X)) (snd (xpos X)).

(** getIndexFromPosition; CostMap::getIndex, cost_map.cpp:214-217. The conversion comes first. *)
Definition xraw1 (p L c r : num) : res Z :=
  rbind (conv (ndiv (nsub (nsub p (nmul half L)) c) r)) (fun k => Ok (- k)).
Definition xgetIndex (X : xmap) (p : pair2) : res (bool * idx) :=
  rbind (xraw1 (fst p) (fst (xlen X)) (fst (xpos X)) (xres X)) (fun k0 =>
  rbind (xraw1 (snd p) (snd (xlen X)) (snd (xpos X)) (xres X)) (fun k1 =>
  Ok (xisInside X p, wrap_index (k0, k1) (size (xcells X)) (start (xcells X))))).

(** getPositionFromIndex; CostMap::getPosition, cost_map.cpp:219-222 *)
Definition xposition1 (k : Z) (L c r : num) : num :=
  nadd (nadd c (nsub (nmul half L) (nmul half r))) (nmul r (Fin (inject_Z (- k)))).
Definition xgetPosition (X : xmap) (i : idx) : option pair2 :=
  let m := xcells X in
  if index_in_range i (size m)
  then let u := unwrap_index i (size m) (start m) in
       Some (xposition1 (fst u) (fst (xlen X)) (fst (xpos X)) (xres X), xposition1 (snd u) (snd (xlen X)) (snd (xpos X)) (xres X))
  else None.

(** CostMap::atPosition, cost_map.cpp:161-168 *)
Definition xatPosition (X : xmap) (l : string) (p : pair2) : res Z :=
  rbind (xgetIndex X p) (fun '(ok, i) => if ok : bool then at_ (xcells X) l i else Throw OutOfRange).

(** CostMap::setGeometry, cost_map.cpp:43-62 *)
Definition xsetGeometry (l : pair2) (r : num) (p : pair2) : M xmap unit := fun X =>
  if negb (nlt (Fin 0) (fst l) && nlt (Fin 0) (snd l) && nlt (Fin 0) r) then Flt AssertFailed
  else match conv (nround (ndiv (fst l) r)), conv (nround (ndiv (snd l) r)) with
       | Ok n0, Ok n1 =>
           match (resize (n0, n1) ;;; clearAll)%mon (xcells X) with
           | Ret _ m => Ret tt (XMap (set_start m (0, 0)) (nmul (Fin (inject_Z n0)) r, nmul (Fin (inject_Z n1)) r) r p)
           | Exn e m => Exn e (XMap m (xlen X) (xres X) (xpos X))
           | Flt f => Flt f
           end
       | Fault f, _ | _, Fault f => Flt f
       | Throw e, _ | _, Throw e => Exn e X
       end.

(** getIndexShiftFromPositionShift, one axis *)
Definition xshift1 (d r : num) : res Z :=
  let x := ndiv d r in
  rbind (conv (nadd x (if nlt (Fin 0) x then half else nneg half))) (fun k => Ok (- k)).

(** CostMap::move, cost_map.cpp:327-393, with the wrapping or clamping of startIndex_ as in CostMap.v *)
Definition xmove (p : pair2) : M xmap (bool * list region) := fun X =>
  match xshift1 (nsub (fst p) (fst (xpos X))) (xres X), xshift1 (nsub (snd p) (snd (xpos X))) (xres X) with
  | Ok k0, Ok k1 =>
      match (r0 <- move_axis true k0 ;; r1 <- move_axis false k1 ;; ret (r0 ++ r1))%mon (xcells X) with
      | Ret rs m =>
          if match bpol with BWrap => (fst (size m) =? 0) || (snd (size m) =? 0) | BClamp => false end then Flt DivByZero
          else Ret (negb ((k0 =? 0) && (k1 =? 0)), rs)
                 (XMap (set_start m (bound1 (fst (start m) + k0) (fst (size m)), bound1 (snd (start m) + k1) (snd (size m))))
                       (xlen X) (xres X)
                       (nadd (fst (xpos X)) (nmul (Fin (inject_Z (- k0))) (xres X)), nadd (snd (xpos X)) (nmul (Fin (inject_Z (- k1))) (xres X))))
      | Exn e m => Exn e (XMap m (xlen X) (xres X) (xpos X))
      | Flt f => Flt f
      end
  | Fault f, _ | _, Fault f => Flt f
  | Throw e, _ | _, Throw e => Exn e X
  end.

(** CostMap::addDataFrom, cost_map.cpp:401-431, without extending the map; the geometry is not changed. *)
Definition xmerge_cell (geo other : xmap) (overwrite : bool) (ls : list string) (i : idx) : M cmap unit := fun m =>
  (v <- lift (isValid m i) ;;
   if v && negb overwrite then ret tt
   else match xgetPosition (XMap m (xlen geo) (xres geo) (xpos geo)) i with
        | None => abort Uninit
        | Some p =>
            if negb (xisInside other p) then ret tt
            else
              j <- lift (xgetIndex other p) ;;
              mfor ls (fun l =>
                ok <- lift (isValid_layer (xcells other) (snd j) l) ;;
                if negb ok then ret tt
                else w <- lift (at_ (xcells other) l (snd j)) ;; at_set l i w)
        end)%mon m.
Definition xaddDataFrom (other : xmap) (overwrite copyAll : bool) (ls : list string) : M xmap bool := fun X =>
  let ls := if copyAll then layers (xcells other) else ls in
  match (mfor ls add_missing ;;;
         (fun m => (vs <- lift (map_visits (size m) (start m)) ;; mfor vs (xmerge_cell X other overwrite ls)) m))%mon (xcells X) with
  | Ret _ m => Ret true (XMap m (xlen X) (xres X) (xpos X))
  | Exn e m => Exn e (XMap m (xlen X) (xres X) (xpos X))
  | Flt f => Flt f
  end.

(** LineIterator::getIndexLimitedToMapRange, line_iterator.cpp:93-105 *)
Definition xsqnorm (v : pair2) : num := nadd (nmul (fst v) (fst v)) (nmul (snd v) (snd v)).
Definition xdiff (a b : pair2) : pair2 := (nsub (fst a) (fst b), nsub (snd a) (snd b)).
Definition xnormalized (v : pair2) : pair2 :=
  let z := xsqnorm v in if nlt (Fin 0) z then (ndiv (fst v) (nsqrt z), ndiv (snd v) (nsqrt z)) else v.
Fixpoint xlimit_loop (X : xmap) (en dir : pair2) (fuel : nat) (st : pair2) : res (option idx) :=
  match fuel with
  | O => Fault OutOfFuel
  | S f =>
      rbind (xgetIndex X st) (fun '(ok, i) =>
      if ok : bool then Ok (Some i)
      else
        let step := nsub (xres X) (Fin dbl_eps) in
        let st' := (nadd (fst st) (nmul step (fst dir)), nadd (snd st) (nmul step (snd dir))) in
        if nlt (nsqrt (xsqnorm (xdiff en st'))) step then Ok None
        else xlimit_loop X en dir f st')
  end.
Definition xlimited_index (X : xmap) (st en : pair2) (fuel : nat) : res (option idx) :=
  xlimit_loop X en (xnormalized (xdiff en st)) fuel st.

(** LineIterator(map, start, end), line_iterator.cpp:16-24 *)
Definition xline_new (X : xmap) (st en : pair2) (fuel : nat) : res (option line_iter) :=
  rbind (xlimited_index X st en fuel) (fun a =>
  match a with
  | None => Ok None
  | Some a => rbind (xlimited_index X en st fuel) (fun b =>
      match b with None => Ok None | Some b => Ok (Some (line_new a b)) end)
  end).

(** inflation.cpp:38; [conv] converts to unsigned int here. *)
Definition xcell_radius (rad : num) (X : xmap) : res Z := conv (nmax (Fin 0) (nceil (ndiv rad (xres X)))).

End NonFinite.

(** Conversions that fail, as the standard has it undefined, when the value is no int or no unsigned int. *)
Definition strict_int (a : num) : res Z :=
  match a with
  | Fin q => let k := Qtrunc q in if (- 2 ^ 31 <=? k) && (k <? 2 ^ 31) then Ok k else Fault BadCast
  | _ => Fault BadCast
  end.
Definition strict_unsigned (a : num) : res Z :=
  match a with
  | Fin q => let k := Qtrunc q in if (0 <=? k) && (k <? 2 ^ 32) then Ok k else Fault BadCast
  | _ => Fault BadCast
  end.
(** What x86-64 processors do: the least int instead. *)
Definition x86_int (a : num) : res Z :=
  match strict_int a with Ok k => Ok k | _ => Ok (- 2 ^ 31) end.
