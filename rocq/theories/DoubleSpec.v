(** Specification vocabulary for the rounded geometry: what a user of doubles can
    rely on. *)
From Coq Require Import ZArith QArith Qabs String List Bool.
From Verif Require Import Base Mat GridMapMath CostMap Spec.
Import ListNotations.
Open Scope Z_scope.

(** Relative error of one rounding: half a unit in the last place of a double,
    2^-53. *)
Definition ulp : Q := 1 # 9007199254740992.

(** The tolerance, as a length, for a map whose points lie within [W] cells of the
    origin: 16 roundings of the largest coordinate.  A map of 10^6 cells around the
    origin has a tolerance of 2*10^-9 cells. *)
Definition blur (W : Z) (m : cmap) : Q := (16 * ulp * inject_Z W * resn m)%Q.

(** A map with at least one cell, of nominal length up to one rounding, all within
    [W] cells of the origin. *)
Record dgeo (W : Z) (m : cmap) : Prop :=
  { d_res : (0 < resn m)%Q;
    d_size : 0 < fst (size m) /\ 0 < snd (size m);
    d_start : in_range (size m) (start m);
    d_len0 : (Qabs (fst (len m) - inject_Z (fst (size m)) * resn m) <= ulp * (inject_Z (fst (size m)) * resn m))%Q;
    d_len1 : (Qabs (snd (len m) - inject_Z (snd (size m)) * resn m) <= ulp * (inject_Z (snd (size m)) * resn m))%Q;
    d_far0 : (Qabs (fst (pos m)) + inject_Z (fst (size m)) * resn m <= inject_Z W * resn m)%Q;
    d_far1 : (Qabs (snd (pos m)) + inject_Z (snd (size m)) * resn m <= inject_Z W * resn m)%Q }.

(** Componentwise distance at most e. *)
Definition close (e : Q) (a b : vec) : Prop := (Qabs (fst a - fst b) <= e /\ Qabs (snd a - snd b) <= e)%Q.

(** The extent of a map, enlarged by e on every side (shrunk if e < 0). *)
Definition inside_by (e : Q) (m : cmap) (p : vec) : Prop :=
  (fst (lower m) - e < fst p /\ fst p <= fst (upper m) + e /\
   snd (lower m) - e < snd p /\ snd p <= snd (upper m) + e)%Q.

(** The map moved by (s0, s1) whole cells, up to e. *)
Definition displaced (e : Q) (m m' : cmap) (s : idx) : Prop :=
  close e (pos m') (fst (pos m) + inject_Z (fst s) * resn m, snd (pos m) + inject_Z (snd s) * resn m)%Q.

(** The target of a move stays a cell away from the limit of dgeo. *)
Definition near_target (W : Z) (m : cmap) (p : vec) : Prop :=
  (Qabs (fst p) + inject_Z (fst (size m) + 1) * resn m <= inject_Z W * resn m /\
   Qabs (snd p) + inject_Z (snd (size m) + 1) * resn m <= inject_Z W * resn m)%Q.

(** Cell j of m' is (s0, s1) whole cells further from the positive corner than cell
    i of m: with the map displaced by (s0, s1) it is the same place. *)
Definition same_place (m m' : cmap) (s i j : idx) : Prop :=
  world_index m' j = (fst (world_index m i) + fst s, snd (world_index m i) + snd s).

(** What one move may do to a map, the map having been displaced by s cells. *)
Record shifted (m m' : cmap) (rs : list region) (s : idx) : Prop :=
  { sh_same : layers m' = layers m /\ frame m' = frame m /\ stamp m' = stamp m /\ basic m' = basic m /\
              len m' = len m /\ resn m' = resn m /\ size m' = size m;
    sh_layers : forall l, has_layer m' l <-> has_layer m l;
    (* data stays at its place *)
    sh_kept : forall i j, in_range (size m) i -> in_range (size m') j -> same_place m m' s i j ->
              forall l v, value_at m' l j v <-> value_at m l i v;
    (* new cells are unknown, and they are what is reported *)
    sh_new : forall j, in_range (size m') j -> (forall i, in_range (size m) i -> ~ same_place m m' s i j) ->
             forall l, cleared_layer m l -> value_at m' l j unknown;
    sh_regions : forall j, in_range (size m') j ->
             ((exists g, In g rs /\ region_has g j) <-> forall i, in_range (size m) i -> ~ same_place m m' s i j) }.

(** No point of the polygon's border at the height of p is within e of p. *)
Definition clear_of (e : Q) (vs : list vec) (p : vec) : Prop :=
  forall a b t, In (a, b) (polygon_edges vs) -> (0 <= t)%Q -> (t <= 1)%Q ->
  (snd p == snd (along a b t))%Q -> (e < Qabs (fst p - fst (along a b t)))%Q.

(** Axis lengths multiplied by k. *)
Definition scaled (k : Q) (L : vec) : vec := (k * fst L, k * snd L)%Q.

(** The other map lies within [W] cells of m, as m does itself. *)
Definition reaches (W : Z) (m other : cmap) : Prop :=
  (0 <= fst (len other) /\ 0 <= snd (len other) /\
   Qabs (fst (pos other)) + fst (len other) <= inject_Z W * resn m /\
   Qabs (snd (pos other)) + snd (len other) <= inject_Z W * resn m)%Q.

(** The corners of the smallest rectangle around two maps. *)
Definition joint_upper (m other : cmap) : vec := (Qmax (fst (upper m)) (fst (upper other)), Qmax (snd (upper m)) (snd (upper other))).
Definition joint_lower (m other : cmap) : vec := (Qmin (fst (lower m)) (fst (lower other)), Qmin (snd (lower m)) (snd (lower other))).

(** No cell of m has its centre within e of the border of the other map. *)
Definition off_border (e : Q) (m other : cmap) : Prop := forall i, in_range (size m) i ->
  inside_by (- e) other (centre m i) \/ ~ inside_by e other (centre m i).

(** Cells of m inside the other map are assigned [src], a cell of the other map
    that covers their centre up to e. *)
Definition covering (e : Q) (m other : cmap) (src : idx -> idx) : Prop := forall i, in_range (size m) i ->
  inside_by (- e) other (centre m i) -> in_range (size other) (src i) /\ close (resn other / 2 + e) (centre m i) (centre other (src i)).

(** The value that a merge takes from the other map. *)
Definition taken (e : Q) (m other : cmap) (ow : bool) (sel : list string) (src : idx -> idx) (l : string) (i : idx) (w : Z) : Prop :=
  In l sel /\ (ow = true \/ ~ valid_cell m i) /\ inside_by (- e) other (centre m i) /\ value_at other l (src i) w /\ w <> unknown.
