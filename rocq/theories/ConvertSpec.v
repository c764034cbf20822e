(** Specification vocabulary for messages, grids and images. *)
From Coq Require Import ZArith QArith Qabs String List Bool.
From Verif Require Import Base Mat GridMapMath CostMap Converter Spec.
Import ListNotations.
Open Scope Z_scope.

(** Number of cells for a length: nearest integer to length / resolution. *)
Definition cells_for (r x : Q) (n : Z) : Prop := (inject_Z n - (1#2) <= x / r /\ x / r < inject_Z n + (1#2))%Q.

(** The message describes a rectangle of positive extent. *)
Definition positive (g : msg) : Prop := (0 < fst (g_length g) /\ 0 < snd (g_length g) /\ 0 < g_resn g)%Q.

(** The array holds an n0 x n1 matrix, column after column: first dimension the
    columns, second the rows. (A row-major array passes for a 0 x 0 matrix.) *)
Definition fits (n : idx) (a : marray) : Prop :=
  exists c r more, a_dims a = c :: r :: more /\
    ((fst c <> "row_index"%string /\ snd r = fst n /\ snd c = snd n /\ fst n * snd n <= Z.of_nat (length (a_data a)))
     \/ (fst c = "row_index"%string /\ n = (0, 0))).

(** The array holds v for cell i of an n0 x n1 matrix. *)
Definition array_at (n : idx) (a : marray) (i : idx) (v : Z) : Prop :=
  nth_error (a_data a) (Z.to_nat (fst i + snd i * fst n)) = Some v.

(** The last array that comes with name l. *)
Fixpoint last_with (l : string) (las : list (string * marray)) : option marray :=
  match las with
  | [] => None
  | (k, a) :: t => match last_with l t with
                   | Some b => Some b
                   | None => if String.eqb l k then Some a else None
                   end
  end.

(** Names appended to a list, each at most once. *)
Fixpoint appended (ls names : list string) : list string :=
  match names with
  | [] => ls
  | k :: t => appended (if smem k ls then ls else ls ++ [k]) t
  end.

(** Same layers in the same order with the same contents, same basic layers,
    frame, stamp, geometry and start index. *)
Definition same_map (a b : cmap) : Prop :=
  layers b = layers a /\ (forall l, aget (data b) l = aget (data a) l) /\
  basic b = basic a /\ frame b = frame a /\ stamp b = stamp a /\
  veq (len b) (len a) /\ resn b = resn a /\ pos b = pos a /\ size b = size a /\ start b = start a.

(** The stamp fits a ros::Time: 32 bits of seconds. *)
Definition stamp_ok (m : cmap) : Prop := 0 <= stamp m < 4294967296 * 1000000000.

(** A cost on the scale of an occupancy grid: -1 unknown, 0..98 traversable, 99
    inscribed, 100 lethal. *)
Definition occupancy (v : Z) : Z :=
  if v =? unknown then -1 else if v =? lethal then 100 else if v =? inscribed then 99 else 98 * v / 252.

(** The occupancy grid has p as the centre of its cell (x, y); cells of width r
    are counted from the origin. *)
Definition occ_centre (o : occ) (r : Q) (x y : Z) (p : vec) : Prop :=
  (fst p == fst (o_origin o) + (inject_Z x + (1#2)) * r)%Q /\
  (snd p == snd (o_origin o) + (inject_Z y + (1#2)) * r)%Q.

(** Cell (x, y) of an occupancy grid: rows along x, from the origin. *)
Definition occ_at (o : occ) (x y : Z) : option Z :=
  if (0 <=? x) && (x <? o_width o) && (0 <=? y) && (y <? o_height o)
  then nth_error (o_data o) (Z.to_nat (x + y * o_width o)) else None.

(** Cell i of layer l of a grid map; [Some None] is NaN. *)
Definition grid_at (g : gmap) (l : string) (i : idx) : option (option Q) :=
  match aget (m_data g) l with
  | None => None
  | Some (r, c, d) => if (0 <=? fst i) && (fst i <? r) && (0 <=? snd i) && (snd i <? c)
                      then nth_error d (Z.to_nat (fst i + snd i * r)) else None
  end.

(** Centre of cell i of a grid map. *)
Definition grid_centre (g : gmap) (i : idx) : vec :=
  (centre1 (fst (m_len g)) (fst (m_pos g)) (m_resn g) ((fst i - fst (m_start g)) mod fst (m_size g)),
   centre1 (snd (m_len g)) (snd (m_pos g)) (m_resn g) ((snd i - snd (m_start g)) mod snd (m_size g))).
