(** Calls whose argument is the map itself, or a name inside its own list of layers. *)
From Coq Require Import ZArith QArith String List Bool.
From Verif Require Import Base Mat GridMapMath GridIter CostMap.
Import ListNotations.
Open Scope Z_scope.

Section AliasModel.
Context {E : Env}.
Local Open Scope mon_scope.

(** cost_map.cpp:140-154 called as [map.erase(map.getLayers()[k])]: getLayers (156-159)
    returns a reference to layers_, so [layer] is the string in slot k. Line 148 removes
    the first entry with that name, and moves the later ones up by one (std::vector::erase
    move-assigns each string to the slot before it and destroys the last one). Line 150
    reads [layer] again, once for each entry of basicLayers_ it compares: it is now the
    string that moved into slot k, or, if none did, a destroyed one. *)
Definition erase_slot (k : nat) : M cmap bool := fun m =>
  match nth_error (layers m) k with
  | None => Flt OutOfBounds
  | Some l =>
      if negb (amem (data m) l) then Ret false m
      else
        let m1 := set_data m (adel (data m) l) in
        if negb (smem l (layers m1)) then Ret false m1
        else
          let m2 := set_layers m1 (remove_first l (layers m1)) in
          match basic m2 with
          | [] => Ret true m2
          | bs => match nth_error (layers m2) k with
                  | None => Flt Uninit
                  | Some l' => Ret true (set_basic m2 (remove_first l' bs))
                  end
          end
  end.

(** cost_map.cpp:417-428 with [other] the map itself: every read of [other] sees what has
    been written so far. *)
Definition merge_cell_self (overwrite : bool) (ls : list string) (i : idx) : M cmap unit := fun m =>
  (v <- lift (isValid m i) ;;
   if v && negb overwrite then ret tt
   else match getPosition m i with
        | None => abort Uninit
        | Some p =>
            if negb (isInside m p) then ret tt
            else
              let j := snd (getIndex m p) in
              mfor ls (fun l => fun m1 =>
                (ok <- lift (isValid_layer m1 j l) ;;
                 if negb ok then ret tt
                 else w <- lift (at_ m1 l j) ;; at_set l i w) m1)
        end) m.

(** cost_map.cpp:401-431 called as [map.addDataFrom(map, ...)]. The list of layers is a
    copy (403). extendToInclude (433-503) copies the map only if it resizes it (470), and
    reads [other] only before. *)
Definition addDataFrom_self (extend overwrite copyAll : bool) (ls : list string) : M cmap bool := fun m =>
  let ls := if copyAll then layers m else ls in
  ((if extend then extendToInclude m else ret true) ;;;
   mfor ls add_missing ;;;
   (fun m1 => (vs <- lift (map_visits (size m1) (start m1)) ;; mfor vs (merge_cell_self overwrite ls)) m1) ;;;
   ret true) m.

End AliasModel.
