(** Property C24: linear interpolation. *)
From Coq Require Import ZArith QArith Qround Qabs String List Bool.
From Verif Require Import Base Mat GridMapMath GridIter CostMap Spec BaseLemmas CoreProofs CoreProofs2 InterpProofs Samples.
Import ListNotations.
Open Scope Z_scope.

(** C24. [i] is the cell covering [p], [square] the four cells whose centres
    surround [p]; a + bx + cy + kxy is the bilinear function through them.  [lin] is
    the solution of the four equations in doubles; it is off by at most [d] on the
    map.  The result is then the bilinear value rounded down, up to [d] and one
    rounding to float.  With [d] up to 2^-26 it is between the smallest and the
    largest of the four costs, and the cell's own cost at its centre. *)
Theorem C24_linear : forall (E : Env), Exact E -> forall lin d C m l p i,
  (0 <= d)%Q -> (d <= 1 # 4)%Q -> accurate lin (resn m) C d -> (forall q, inside m q -> Qabs (fst q) <= C /\ Qabs (snd q) <= C)%Q ->
  geo_ok m -> reg_ok m -> has_layer m l -> (forall j v, value_at m l j v -> 0 <= v <= 255) -> start m = (0, 0) ->
  in_range (size m) i -> contains (resn m) (centre m i) p ->
  let dx := if Qle_bool (fst (centre m i)) (fst p) then -1 else 1 in
  let dy := if Qle_bool (snd (centre m i)) (snd p) then -1 else 1 in
  let square := [i; (fst i + dx, snd i); (fst i, snd i + dy); (fst i + dx, snd i + dy)] in
  let e := (d + (1 # 65536))%Q in
  (Forall (in_range (size m)) square ->
   exists a b c k v, atPosition_interp lin m l p INTER_LINEAR = Ok v /\
     (forall j, In j square -> exists w, value_at m l j w /\
        (a + b * fst (centre m j) + c * snd (centre m j) + k * fst (centre m j) * snd (centre m j) == inject_Z w)%Q) /\
     (let B := a + b * fst p + c * snd p + k * fst p * snd p in inject_Z v <= B + e /\ B - e < inject_Z v + 1)%Q /\
     ((d <= 1 # 67108864)%Q ->
        (forall lo hi, (forall j w, In j square -> value_at m l j w -> lo <= w <= hi) -> lo <= v <= hi) /\
        (veq p (centre m i) -> value_at m l i v))) /\
  (~ Forall (in_range (size m)) square ->
   exists v, atPosition_interp lin m l p INTER_LINEAR = Ok v /\ value_at m l i v).
Proof. exact @interp_inside. Qed.
Print Assumptions C24_linear.

(** Outside: within one cell of the upper sides the call throws; anywhere else it
    reads an uninitialised position. *)
Theorem C24_outside : forall (E : Env), Exact E -> forall lin m l p, geo_ok m -> start m = (0, 0) -> ~ inside m p ->
  let near := (fst (lower m) < fst p)%Q /\ (fst p < fst (upper m) + resn m)%Q /\
              (snd (lower m) < snd p)%Q /\ (snd p < snd (upper m) + resn m)%Q in
  (near -> atPosition_interp lin m l p INTER_LINEAR = Throw OutOfRange) /\
  (~ near -> atPosition_interp lin m l p INTER_LINEAR = Fault Uninit).
Proof. exact @interp_outside. Qed.
Print Assumptions C24_outside.

Definition all_costsb (m : cmap) (l : string) (lo hi : Z) : bool :=
  match aget (data m) l with Some d => forallb (fun v => (lo <=? v) && (v <=? hi)) (mcoef d) | None => true end.
Lemma all_costsb_ok m l lo hi : all_costsb m l lo hi = true -> forall i v, value_at m l i v -> lo <= v <= hi.
Proof.
  unfold all_costsb. intros H i v (d & Hd & Hv). rewrite Hd in H. rewrite forallb_forall in H.
  unfold mget in Hv. destruct (in_mat d (fst i) (snd i)); [|discriminate]. apply nth_error_In in Hv. apply H in Hv.
  apply andb_true_iff in Hv. now rewrite !Z.leb_le in Hv.
Qed.

(** (5/8, -7/8) lies between the cells (2,1), (1,1), (2,2), (1,2) holding 109, 105,
    110, 106; (3/2, -1) is in the outermost row of cells. *)
Example C24_case : geo_ok sample0 /\ reg_ok' sample0 /\ start sample0 = (0, 0) /\
  (forall j v, value_at sample0 "b" j v -> 0 <= v <= 255) /\ (forall C, accurate exactly (resn sample0) C 0) /\
  atPosition_interp (E := exact_wrap) exactly sample0 "b" (5#8, -7#8)%Q INTER_LINEAR = Ok 108 /\
  atPosition_interp (E := exact_wrap) exactly sample0 "b" (3#2, -1#1)%Q INTER_LINEAR = Ok 102 /\
  atPosition_interp (E := exact_wrap) exactly sample0 "b" (2#1, 0)%Q INTER_LINEAR = Throw OutOfRange /\
  atPosition_interp (E := exact_wrap) exactly sample0 "b" (-3#1, 0)%Q INTER_LINEAR = Fault Uninit.
Proof.
  split; [exact sample0_geo|]. split; [exact sample0_reg|]. split; [reflexivity|].
  split; [apply all_costsb_ok; vm_compute; reflexivity|]. split; [intros C; apply exactly_accurate|]. conj_vm.
Qed.

(** On a moved map the value can exceed every cost in the layer. *)
Definition seam : cmap :=
  after (at_set "c" (3, 1) 200) (after (at_set "c" (3, 0) 200) (after (add_value "c" 0) sample)).
Theorem C24_moved_refuted : exists m l p v, geo_ok m /\ reg_ok' m /\ inside m p /\
  (forall i w, value_at m l i w -> 0 <= w <= 200) /\
  atPosition_interp (E := exact_wrap) exactly m l p INTER_LINEAR = Ok v /\ 200 < v.
Proof.
  exists seam, "c"%string, (1#4, -19#8)%Q, 225.
  split; [apply geo_okb_ok; vm_compute; reflexivity|]. split; [apply reg_okb_ok; vm_compute; reflexivity|].
  split; [conj_vm|]. split; [apply all_costsb_ok; vm_compute; reflexivity|]. conj_vm.
Qed.
Print Assumptions C24_moved_refuted.

(** Rounding to float comes before the conversion to a cost: with the exact solution
    of the equations, one 2^-30th of a cell from a centre, the result is the cost
    above the interpolated value. *)
Theorem C24_floor_refuted : exists m l p v x0 x1 y0 y2 v0 v1 v2 v3, geo_ok m /\ reg_ok' m /\ start m = (0, 0) /\
  value_at m l (2, 1) v0 /\ value_at m l (1, 1) v1 /\ value_at m l (2, 0) v2 /\ value_at m l (1, 0) v3 /\
  veq (centre m (2, 1)) (x0, y0) /\ veq (centre m (1, 0)) (x1, y2) /\
  atPosition_interp (E := exact_wrap) exactly m l p INTER_LINEAR = Ok v /\
  (bilinear x0 x1 y0 y2 (inject_Z v0) (inject_Z v1) (inject_Z v2) (inject_Z v3) p < inject_Z v)%Q.
Proof.
  exists sample0, "b"%string, ((fst (centre sample0 (2, 1)%Z) + (1 # 2147483648)), snd (centre sample0 (2, 1)%Z))%Q, 109,
    (fst (centre sample0 (2, 1))), (fst (centre sample0 (1, 0))), (snd (centre sample0 (2, 1))), (snd (centre sample0 (1, 0))), 109, 105, 108, 104.
  split; [exact sample0_geo|]. split; [exact sample0_reg|]. split; [reflexivity|].
  do 4 (split; [eexists; split; vm_compute; reflexivity|]). conj_vm.
Qed.
Print Assumptions C24_floor_refuted.

(** A solution that is off by 2^-10, on a layer that is 100 everywhere. *)
Theorem C24_constant_refuted : exists lin m l p, (forall r C, accurate lin r C (1 # 1024)) /\ geo_ok m /\ reg_ok' m /\ start m = (0, 0) /\
  (forall j v, value_at m l j v -> 100 <= v <= 100) /\ atPosition_interp (E := exact_wrap) lin m l p INTER_LINEAR = Ok 99.
Proof.
  exists (fun a b p => exactly a b p - (1 # 1024))%Q, (after (add_value "c" 100) sample0), "c"%string, (5#8, -7#8)%Q.
  split.
  { intros r C x0 x1 y0 y2 b0 b1 b2 b3 p _ _ _ _ _ _ _ _ _ _ _. unfold exactly. set (B := bilinear _ _ _ _ _ _ _ _ _).
    assert (B - (1 # 1024) - B == - (1 # 1024))%Q as -> by ring. discriminate. }
  split; [apply geo_okb_ok; vm_compute; reflexivity|]. split; [apply reg_okb_ok; vm_compute; reflexivity|]. split; [vm_compute; reflexivity|].
  split; [apply all_costsb_ok; vm_compute; reflexivity|]. conj_vm.
Qed.
Print Assumptions C24_constant_refuted.
