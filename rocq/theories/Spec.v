(** Specification vocabulary: geometry and world-level view of a map, stated
    without the functions under test. *)
From Coq Require Import ZArith QArith Qabs String List Bool.
From Verif Require Import Base Mat GridMapMath CostMap.
Import ListNotations.
Open Scope Z_scope.

(** [i] is a legal index of an n0 x n1 buffer. *)
Definition in_range (n i : idx) : Prop := 0 <= fst i < fst n /\ 0 <= snd i < snd n.

(** A map with at least one cell and a consistent geometry. *)
Record geo_ok (m : cmap) : Prop :=
  { g_res : (0 < resn m)%Q;
    g_size : 0 < fst (size m) /\ 0 < snd (size m);
    g_len : veq (len m) (inject_Z (fst (size m)) * resn m, inject_Z (snd (size m)) * resn m)%Q;
    g_start : in_range (size m) (start m) }.

(** World order of a buffer index: (0,0) is the cell at the +x/+y corner. *)
Definition world_index (m : cmap) (i : idx) : idx :=
  ((fst i - fst (start m)) mod fst (size m), (snd i - snd (start m)) mod snd (size m)).

(** Centre of the k-th cell from the positive end of an axis. *)
Definition centre1 (L c r : Q) (k : Z) : Q := (c + L / 2 - (inject_Z k + (1#2)) * r)%Q.

(** Centre of the cell stored at buffer index [i]. *)
Definition centre (m : cmap) (i : idx) : vec :=
  (centre1 (fst (len m)) (fst (pos m)) (resn m) (fst (world_index m i)),
   centre1 (snd (len m)) (snd (pos m)) (resn m) (snd (world_index m i))).

(** The half-open cell of width r around c contains x. *)
Definition contains1 (r c x : Q) : Prop := (c - r / 2 < x /\ x <= c + r / 2)%Q.
Definition contains (r : Q) (c x : vec) : Prop :=
  contains1 r (fst c) (fst x) /\ contains1 r (snd c) (snd x).

(** The extent of a map. *)
Definition inside (m : cmap) (p : vec) : Prop :=
  (fst (pos m) - fst (len m) / 2 < fst p /\ fst p <= fst (pos m) + fst (len m) / 2 /\
   snd (pos m) - snd (len m) / 2 < snd p /\ snd p <= snd (pos m) + snd (len m) / 2)%Q.

(** The +x/+y and -x/-y corners of a map. *)
Definition upper (m : cmap) : vec :=
  (fst (pos m) + fst (len m) / 2, snd (pos m) + snd (len m) / 2)%Q.
Definition lower (m : cmap) : vec :=
  (fst (pos m) - fst (len m) / 2, snd (pos m) - snd (len m) / 2)%Q.

(** Layer [l] holds value [v] in the cell covering world position [p]. *)
Definition world_value (m : cmap) (l : string) (p : vec) (v : Z) : Prop :=
  exists i d, in_range (size m) i /\ aget (data m) l = Some d /\
              mget d (fst i) (snd i) = Some v /\ contains (resn m) (centre m i) p.

(** Registry consistency: the listed layers are exactly the stored ones, once
    each, and every matrix has the map's size. *)
Record reg_ok (m : cmap) : Prop :=
  { r_nodup : NoDup (layers m);
    r_keys : NoDup (akeys (data m));
    r_same : forall l, In l (layers m) <-> In l (akeys (data m));
    r_mat : forall l d, aget (data m) l = Some d ->
            wf_mat d /\ mrows d = fst (size m) /\ mcols d = snd (size m) }.

(** Equality of everything but the layer contents and registry. *)
Definition same_meta (a b : cmap) : Prop :=
  frame a = frame b /\ stamp a = stamp b /\ basic a = basic b /\ len a = len b /\
  resn a = resn b /\ pos a = pos b /\ size a = size b /\ start a = start b.

(** The cell of layer [l] at buffer index [i] holds [v]. *)
Definition value_at (m : cmap) (l : string) (i : idx) (v : Z) : Prop :=
  exists d, aget (data m) l = Some d /\ mget d (fst i) (snd i) = Some v.

(** Layer [l] exists. *)
Definition has_layer (m : cmap) (l : string) : Prop := exists d, aget (data m) l = Some d.

(** Same layers, in the same order, with the same contents except possibly [l]. *)
Definition same_but_layer (l : string) (a b : cmap) : Prop :=
  layers a = layers b /\ (forall l', has_layer a l' <-> has_layer b l') /\
  (forall l', l' <> l -> aget (data a) l' = aget (data b) l').

(** The cost values of the API (cost_map_core/common.hpp), as numbers. *)
Definition unknown : Z := 255.
Definition lethal : Z := 254.
Definition inscribed : Z := 253.
Definition free : Z := 0.

(** Every basic layer exists. *)
Definition basics_exist (m : cmap) : Prop := forall l, In l (basic m) -> has_layer m l.

(** The layers a partial move clears: the basic layers if any, else all. *)
Definition cleared_layer (m : cmap) (l : string) : Prop :=
  match basic m with [] => In l (layers m) | _ => In l (basic m) end.

(** Buffer index [i] belongs to a reported region. *)
Definition region_has (r : region) (i : idx) : Prop :=
  fst (rstart r) <= fst i < fst (rstart r) + fst (rsize r) /\
  snd (rstart r) <= snd i < snd (rstart r) + snd (rsize r).

(** The distance from the map border at which the code places clamped
    positions: 10*DBL_EPSILON, relative when the coordinate exceeds 1. *)
Definition border_eps (x : Q) : Q := ((10 # 4503599627370496) * (if Qlt_le_dec 1 (Qabs x) then Qabs x else 1))%Q.

(** A cell is valid: there are basic layers and each has information there. *)
Definition valid_cell (m : cmap) (i : idx) : Prop :=
  basic m <> [] /\ forall b, In b (basic m) -> exists v, value_at m b i v /\ v <> unknown.

(** Content of a cell, a missing layer counting as unknown. *)
Definition value_or_unknown (m : cmap) (l : string) (i : idx) (v : Z) : Prop :=
  value_at m l i v \/ (~ has_layer m l /\ v = unknown).

(** [other] knows [v] at the centre of cell [i] of [m]. *)
Definition offers (other m : cmap) (l : string) (i : idx) (v : Z) : Prop :=
  world_value other l (centre m i) v /\ v <> unknown.

(** Same resolution and coinciding grid lines. *)
Definition aligned (a b : cmap) : Prop := resn b = resn a /\
  exists z0 z1 : Z, (fst (upper b) == fst (upper a) + inject_Z z0 * resn a)%Q /\
                    (snd (upper b) == snd (upper a) + inject_Z z1 * resn a)%Q.

(** The other map's upper (lower) end lies a >= 0 whole cells beyond ours; a = 0
    when it does not stick out. *)
Definition grows_up (ours theirs r : Q) (a : Z) : Prop :=
  (a = 0 /\ (theirs <= ours)%Q) \/ (0 < a /\ (theirs == ours + inject_Z a * r)%Q).
Definition grows_down (ours theirs r : Q) (b : Z) : Prop :=
  (b = 0 /\ (ours <= theirs)%Q) \/ (0 < b /\ (theirs == ours - inject_Z b * r)%Q).

(* ------------------------------------------------------------------ *)
(** ** Shapes *)

(** Within distance R of c. *)
Definition in_circle (c : vec) (R : Q) (p : vec) : Prop :=
  ((fst p - fst c) * (fst p - fst c) + (snd p - snd c) * (snd p - snd c) <= R * R)%Q.

(** In the ellipse with centre c and axes of lengths L, rotated by the angle with
    cosine cs and sine sn. *)
Definition in_ellipse (c L : vec) (cs sn : Q) (p : vec) : Prop :=
  (let dx := fst p - fst c in let dy := snd p - snd c in
   let a := cs * dx + sn * dy in let b := sn * dx - cs * dy in
   (a * a) / ((fst L / 2) * (fst L / 2)) + (b * b) / ((snd L / 2) * (snd L / 2)) <= 1)%Q.

(** The square root, up to a factor. *)
Definition sqrt_approx (sqr : Q -> Q) : Prop :=
  forall x, (0 <= x)%Q -> (0 <= sqr x /\ x * (9#10) <= sqr x * sqr x /\ sqr x * sqr x <= x * (11#10))%Q.

(** The edges of a closed polygon. *)
Definition polygon_edges (vs : list vec) : list (vec * vec) :=
  match vs with [] => [] | v :: t => combine vs (t ++ [v]) end.

(** The edge from a to b crosses the ray from p in direction +x: it has one end
    above p, the other not, and its point at p's height is right of p. *)
Definition edge_crosses (p : vec) (e : vec * vec) : Prop :=
  let '(a, b) := e in
  ~ ((snd p < snd a)%Q <-> (snd p < snd b)%Q) /\
  exists t, (snd p == snd a + t * (snd b - snd a))%Q /\ (fst p < fst a + t * (fst b - fst a))%Q.

(** The number of edges crossed. *)
Inductive crossed (p : vec) : list (vec * vec) -> nat -> Prop :=
| crossed_nil : crossed p [] 0
| crossed_yes e es n : edge_crosses p e -> crossed p es n -> crossed p (e :: es) (S n)
| crossed_no e es n : ~ edge_crosses p e -> crossed p es n -> crossed p (e :: es) n.

(** Even-odd rule. *)
Definition in_polygon (vs : list vec) (p : vec) : Prop :=
  exists n, crossed p (polygon_edges vs) n /\ Nat.Odd n.

(** The point at parameter t of the segment from a (t = 0) to b (t = 1). *)
Definition along (a b : vec) (t : Q) : vec :=
  (fst a + t * (fst b - fst a), snd a + t * (snd b - snd a))%Q.

(** Squared distance. *)
Definition dist2 (a b : vec) : Q :=
  ((fst b - fst a) * (fst b - fst a) + (snd b - snd a) * (snd b - snd a))%Q.

(** Cell i covers a point of the segment from a to b; a itself if that is inside. *)
Definition enters (m : cmap) (a b : vec) (i : idx) : Prop :=
  exists t, (0 <= t /\ t < 1)%Q /\ in_range (size m) i /\ contains (resn m) (centre m i) (along a b t) /\
    (inside m a -> t == 0)%Q.

(** Integer part of the distance, in cells, between two indices. *)
Definition ring_no (a b : idx) : Z :=
  Z.sqrt ((fst b - fst a) * (fst b - fst a) + (snd b - snd a) * (snd b - snd a)).
