(** Properties C18, C19 and C62: cutting out a submap. *)
From Coq Require Import ZArith QArith Qabs String List Bool Lia.
From Verif Require Import Base Mat GridMapMath GridIter CostMap History Spec BaseLemmas GeoLemmas CoreProofs CoreFinal SubmapProofs Samples.
Import ListNotations.
Open Scope Z_scope.

(** C18. *)
Theorem C18_submap_data : forall (E : Env), Exact E -> forall m q l sub,
  geo_ok m -> reg_ok m -> getSubmap m q l = Ok (true, sub) ->
  geo_ok sub /\ reg_ok sub /\
  layers sub = layers m /\ basic sub = basic m /\ frame sub = frame m /\ stamp sub = stamp m /\
  resn sub = resn m /\ start sub = (0, 0) /\
  (forall i, in_range (size sub) i -> exists j, in_range (size m) j /\ veq (centre sub i) (centre m j) /\
     forall n v, value_at sub n i v <-> value_at m n j v) /\
  (forall p, inside sub p -> inside m p) /\
  (forall n p v, inside sub p -> (world_value sub n p v <-> world_value m n p v)).
Proof. exact @getSubmap_final. Qed.
Print Assumptions C18_submap_data.

Definition sub_sample : cmap :=
  match getSubmap (E := exact_wrap) sample (-1#1, -2#1)%Q (1#1, 9#10)%Q with Ok (_, s) => s | _ => sample end.

Example C18_case : Exact exact_wrap /\ geo_ok sample /\ reg_ok sample /\ start sample = (3, 2) /\
  getSubmap (E := exact_wrap) sample (-1#1, -2#1)%Q (1#1, 9#10)%Q = Ok (true, sub_sample) /\
  size sub_sample = (3, 2) /\
  map (fun p => atPosition (E := exact_wrap) sub_sample "a" p) [(-(1#2), -7#4); (-1#1, -9#4); (-3#2, -9#4)]%Q = [Ok 20; Ok 1; Ok 5] /\
  map (fun p => atPosition (E := exact_wrap) sample "a" p) [(-(1#2), -7#4); (-1#1, -9#4); (-3#2, -9#4)]%Q = [Ok 20; Ok 1; Ok 5].
Proof.
  split; [exact exact_wrap_Exact|]. split; [exact sample_geo|]. split; [apply sample_reg|]. conj_vm.
Qed.

(** C19. A request either fails, leaving an empty map with the parent's layer
    names, or succeeds; it succeeds only for a position inside the map. *)
Theorem C19_submap_result : forall (E : Env), Exact E -> forall m q l, geo_ok m -> reg_ok m ->
  (exists sub, getSubmap m q l = Ok (true, sub) /\ inside sub q /\ inside m q) \/
  getSubmap m q l = Ok (false, new_map (layers m)).
Proof. exact @getSubmap_result_final. Qed.
Print Assumptions C19_submap_result.

(** A request around an inside position succeeds; the submap covers the part of
    the request that lies on the map, and no whole row or column more. *)
Theorem C19_submap_covers : forall (E : Env), Exact E -> forall m q l,
  geo_ok m -> reg_ok m -> inside m q -> (0 <= fst l)%Q -> (0 <= snd l)%Q ->
  (border_eps (fst q + fst l / 2) < resn m)%Q -> (border_eps (fst q - fst l / 2) < resn m)%Q ->
  (border_eps (snd q + snd l / 2) < resn m)%Q -> (border_eps (snd q - snd l / 2) < resn m)%Q ->
  exists sub, getSubmap m q l = Ok (true, sub) /\
    (forall p, inside m p -> (fst q - fst l / 2 <= fst p <= fst q + fst l / 2)%Q ->
       (snd q - snd l / 2 <= snd p <= snd q + snd l / 2)%Q -> inside sub p) /\
    (fst (upper sub) - resn m < fst q + fst l / 2)%Q /\ (fst q - fst l / 2 <= fst (lower sub) + resn m)%Q /\
    (snd (upper sub) - resn m < snd q + snd l / 2)%Q /\ (snd q - snd l / 2 <= snd (lower sub) + resn m)%Q.
Proof. exact @getSubmap_covers_final. Qed.
Print Assumptions C19_submap_covers.

(** A request sticking out of the map on one side, and one outside. *)
Definition edge_sub : cmap :=
  match getSubmap (E := exact_wrap) sample (-2#1, -2#1)%Q (1#1, 9#10)%Q with Ok (_, s) => s | _ => sample end.
Example C19_case : inside sample (-2#1, -2#1)%Q /\
  (border_eps ((-2#1) + (1#1) / 2) < resn sample)%Q /\ (border_eps ((-2#1) - (1#1) / 2) < resn sample)%Q /\
  getSubmap (E := exact_wrap) sample (-2#1, -2#1)%Q (1#1, 9#10)%Q = Ok (true, edge_sub) /\
  size edge_sub = (2, 2) /\ (fst (lower edge_sub) == fst (lower sample))%Q /\ (fst (lower edge_sub) == -9#4)%Q /\
  getSubmap (E := exact_wrap) sample (-(5#2), -2#1)%Q (1#1, 9#10)%Q = Ok (false, new_map ["a"; "b"]%string).
Proof. conj_vm. Qed.

(** The bound on the clamping distance is needed: 2^50 m away from the origin a
    request around the centre of the map fails. *)
Definition far_map : cmap :=
  after (setGeometry (E := binary64 BWrap) (3#1, 3#1)%Q (1#1) (inject_Z (2^50), 0)%Q) (new_map ["a"]%string).
Theorem C19_far_from_origin_refuted : exists m q l, geo_ok m /\ reg_ok m /\ inside m q /\
  (0 <= fst l)%Q /\ (0 <= snd l)%Q /\
  getSubmap (E := binary64 BWrap) m q l = Ok (false, new_map (layers m)).
Proof.
  exists far_map, (pos far_map), (10#1, 2#1)%Q.
  split; [apply geo_okb_ok; vm_compute; reflexivity|]. split; [apply reg_okb_ok; vm_compute; reflexivity|].
  conj_vm.
Qed.
Print Assumptions C19_far_from_origin_refuted.

(** C62. *)
Theorem C62_submap_geometry : forall (E : Env), Exact E -> forall m q l i, geo_ok m -> reg_ok m ->
  submap_geometry m q l = Some i ->
  exists sub vs, getSubmap m q l = Ok (true, sub) /\
    size sub = si_size i /\ pos sub = si_pos i /\ veq (len sub) (si_len i) /\
    in_range (size sub) (si_req i) /\ contains (resn sub) (centre sub (si_req i)) q /\
    sub_visits (size m) (start m) (si_start i) (si_size i) = Ok vs /\
    NoDup (map snd vs) /\ NoDup (map fst vs) /\ (forall w, In w (map snd vs) <-> in_range (size sub) w) /\
    (forall j w, In (j, w) vs -> in_range (size m) j /\ veq (centre sub w) (centre m j) /\
       forall n v, value_at sub n w v <-> value_at m n j v).
Proof. exact @submap_geometry_final. Qed.
Print Assumptions C62_submap_geometry.

Example C62_case :
  submap_geometry (E := exact_wrap) sample (-1#1, -2#1)%Q (1#1, 9#10)%Q =
    Some (SubInfo (4, 3) (3, 2) (-1#1, -2#1)%Q (3#2, 1#1)%Q (1, 1)) /\
  sub_visits (5, 4) (3, 2) (4, 3) (3, 2) =
    Ok [((4, 3), (0, 0)); ((4, 0), (0, 1)); ((0, 3), (1, 0)); ((0, 0), (1, 1)); ((1, 3), (2, 0)); ((1, 0), (2, 1))].
Proof. conj_vm. Qed.
