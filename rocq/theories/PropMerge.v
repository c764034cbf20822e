(** Properties C20-C23: merging maps and extending a map. *)
From Coq Require Import ZArith QArith Qabs String List Bool Lia.
From Verif Require Import Base Mat GridMapMath GridIter CostMap History Spec BaseLemmas GeoLemmas CoreProofs CoreFinal AddDataProofs MergeMissing SubmapProofs ExtendProofs Samples.
Import ListNotations.
Open Scope Z_scope.

(** C20. [takes w]: the layer is selected, the cell may be written, and the other
    map knows w at its centre. *)
Theorem C20_add_data : forall (E : Env), Exact E -> forall m other ow ca ls,
  geo_ok m -> reg_ok' m -> geo_ok other -> reg_ok other ->
  let sel := if ca : bool then layers other else ls in
  (forall l, In l sel -> has_layer other l) ->
  (forall b, In b (basic m) -> has_layer m b \/ In b sel) ->
  exists m', addDataFrom other false ow ca ls m = Ret true m' /\ reg_ok' m' /\ same_meta m m' /\
    (exists ex, layers m' = layers m ++ ex) /\
    (forall l, has_layer m' l <-> has_layer m l \/ In l sel) /\
    (forall l i v, has_layer m' l -> in_range (size m) i ->
       let takes w := In l sel /\ (ow = true \/ ~ valid_cell m i) /\ offers other m l i w in
       (value_at m' l i v <-> takes v \/ (~ (exists w, takes w) /\ value_or_unknown m l i v))).
Proof. exact @add_data_final. Qed.
Print Assumptions C20_add_data.

(** 3 x 2 cells overlapping two cells of the sample; (2, 0) of layer b unknown. *)
Definition patch : cmap :=
  after (at_set "b" (2, 0) 255) (number_cells "c" 30 (number_cells "b" 60
   (after (setGeometry (E := exact_wrap) (3#2, 1#1)%Q (1#2) (1#4, -2#1)%Q) (new_map ["b"; "c"]%string)))).
Definition merged_sample : cmap := after (addDataFrom (E := exact_wrap) patch false false true []) sample.

Example C20_case : geo_ok sample /\ reg_ok' sample /\ geo_ok patch /\ reg_ok patch /\ basic sample = [] /\
  addDataFrom (E := exact_wrap) patch false false true [] sample = Ret true merged_sample /\
  layers merged_sample = ["a"; "b"; "c"]%string /\
  map (fun i => (at_ sample "b" i, at_ merged_sample "b" i, at_ merged_sample "c" i)) [(3, 0); (3, 3); (0, 0)] =
    [(Ok 112, Ok 65, Ok 35); (Ok 115, Ok 115, Ok 34); (Ok 100, Ok 100, Ok 255)].
Proof.
  split; [exact sample_geo|]. split; [exact sample_reg|].
  split; [apply geo_okb_ok; vm_compute; reflexivity|]. split; [apply reg_okb_ok; vm_compute; reflexivity|].
  conj_vm.
Qed.

(** A selected layer [x] that the other map lacks. All selected layers are added
    first. If no cell asks the other map, that is all; otherwise the call throws
    at the first such cell in the order of the map iterator, with the layers
    listed before [x] merged in that cell only. *)
Theorem C20_missing_layer : forall (E : Env), Exact E -> forall m other ow pre x post,
  geo_ok m -> reg_ok' m -> geo_ok other -> reg_ok other ->
  let sel := pre ++ x :: post in
  (forall l, In l pre -> has_layer other l) -> ~ has_layer other x ->
  (forall b, In b (basic m) -> has_layer m b \/ In b sel) ->
  let asked i := in_range (size m) i /\ (ow = true \/ ~ valid_cell m i) /\ inside other (centre m i) in
  let place i := fst (world_index m i) * snd (size m) + snd (world_index m i) in
  exists m', reg_ok' m' /\ same_meta m m' /\ (exists ex, layers m' = layers m ++ ex) /\
    (forall l, has_layer m' l <-> has_layer m l \/ In l sel) /\
    (((forall i, ~ asked i) /\ addDataFrom other false ow false sel m = Ret true m' /\
      forall l i v, has_layer m' l -> in_range (size m) i -> (value_at m' l i v <-> value_or_unknown m l i v)) \/
     exists k, asked k /\ (forall i, asked i -> place k <= place i) /\
       addDataFrom other false ow false sel m = Exn OutOfRange m' /\
       forall l i v, has_layer m' l -> in_range (size m) i ->
         let takes w := i = k /\ In l pre /\ offers other m l k w in
         (value_at m' l i v <-> takes v \/ (~ (exists w, takes w) /\ value_or_unknown m l i v))).
Proof. exact @merge_missing_final. Qed.
Print Assumptions C20_missing_layer.

(** Layer c is taken over in the first shared cell only, b is left alone; a map
    that lies elsewhere only gains the layer. *)
Example C20_missing_case : let sel := ["c"; "z"; "b"]%string in
  has_layer patch "c" /\ ~ has_layer patch "z" /\
  match addDataFrom (E := exact_wrap) patch false true false sel sample with
  | Exn OutOfRange m' => layers m' = ["a"; "b"; "c"; "z"]%string /\
      map (fun i => (at_ m' "c" i, at_ m' "b" i, at_ m' "z" i)) [(3, 2); (3, 3); (3, 0)] =
        [(Ok 255, Ok 114, Ok 255); (Ok 34, Ok 115, Ok 255); (Ok 255, Ok 112, Ok 255)]
  | _ => False end /\
  match addDataFrom (E := exact_wrap) patch false true false ["z"%string] (after (setPosition (9#1, 9#1)%Q) sample) with
  | Ret true m' => layers m' = ["a"; "b"; "z"]%string | _ => False end.
Proof.
  split; [eexists; vm_compute; reflexivity|]. split; [intros [d H]; vm_compute in H; discriminate|].
  vm_compute. split; [split; reflexivity|reflexivity].
Qed.

(** With extension: the same law, relative to the extended map. *)
Theorem C20_add_data_extended : forall (E : Env), Exact E -> forall m other ow ca ls,
  geo_ok m -> reg_ok' m -> basics_exist m -> geo_ok other -> reg_ok other ->
  let sel := if ca : bool then layers other else ls in
  (forall l, In l sel -> has_layer other l) ->
  exists m1 m', extendToInclude other m = Ret true m1 /\
    addDataFrom other true ow ca ls m = Ret true m' /\ same_meta m1 m' /\
    (forall l, has_layer m' l <-> has_layer m1 l \/ In l sel) /\
    (forall l i v, has_layer m' l -> in_range (size m1) i ->
       let takes w := In l sel /\ (ow = true \/ ~ valid_cell m1 i) /\ offers other m1 l i w in
       (value_at m' l i v <-> takes v \/ (~ (exists w, takes w) /\ value_or_unknown m1 l i v))).
Proof. exact @add_data_extended_final. Qed.
Print Assumptions C20_add_data_extended.

Definition far_patch : cmap :=
  number_cells "b" 60 (after (setGeometry (E := exact_wrap) (1#1, 1#1)%Q (1#2) (5#4, -2#1)%Q) (new_map ["b"]%string)).
Definition grown : cmap := after (addDataFrom (E := exact_wrap) far_patch true false true []) sample.
Example C20_extended_case : geo_ok far_patch /\ reg_ok far_patch /\
  addDataFrom (E := exact_wrap) far_patch true false true [] sample = Ret true grown /\
  size grown = (8, 4) /\
  map (fun p => atPosition (E := exact_wrap) grown "b" p) [(3#2, -9#4); (1#2, -9#4); (0, -9#4)]%Q = [Ok 61; Ok 255; Ok 112] /\
  atPosition (E := exact_wrap) sample "b" (0, -9#4)%Q = Ok 112.
Proof.
  split; [apply geo_okb_ok; vm_compute; reflexivity|]. split; [apply reg_okb_ok; vm_compute; reflexivity|].
  conj_vm.
Qed.

(** C21. A cell valid in all basic layers is left alone ... *)
Theorem C21_valid_cells_kept : forall (E : Env), Exact E -> forall m other ca ls i,
  geo_ok m -> reg_ok' m -> geo_ok other -> reg_ok other ->
  let sel := if ca : bool then layers other else ls in
  (forall l, In l sel -> has_layer other l) -> (forall b, In b (basic m) -> has_layer m b \/ In b sel) ->
  in_range (size m) i -> valid_cell m i ->
  exists m', addDataFrom other false false ca ls m = Ret true m' /\
    forall l v, has_layer m l -> (value_at m' l i v <-> value_at m l i v).
Proof. exact @add_data_protected. Qed.
Print Assumptions C21_valid_cells_kept.

Example C21_case : let m := set_basic sample ["b"%string] in
  valid_cell m (3, 0) /\ at_ m "b" (3, 0) = Ok 112 /\
  match addDataFrom (E := exact_wrap) patch false false true [] m with Ret _ m' => at_ m' "b" (3, 0) | _ => Throw OutOfRange end = Ok 112.
Proof.
  split; [|conj_vm]. split; [discriminate|]. intros b [<-|[]]. exists 112. split; [|discriminate].
  apply CoreProofs2.at_value. vm_compute. reflexivity.
Qed.

(** ... but without basic layers, the default, the flag has no effect at all. *)
Theorem C21_flag_ignored : forall (E : Env) other extend ca ls m, basic m = [] ->
  addDataFrom other extend false ca ls m = addDataFrom other extend true ca ls m.
Proof. exact @add_data_no_basic. Qed.
Print Assumptions C21_flag_ignored.

(** So known data is overwritten although overwriteData is false. *)
Theorem C21_keeps_data_refuted : exists other m m' l i v w,
  geo_ok m /\ reg_ok' m /\ geo_ok other /\ reg_ok other /\
  addDataFrom (E := exact_wrap) other false false true [] m = Ret true m' /\
  at_ m l i = Ok v /\ v <> unknown /\ at_ m' l i = Ok w /\ w <> v.
Proof.
  exists patch, sample, merged_sample, "b"%string, (3, 0), 112, 65.
  split; [exact sample_geo|]. split; [exact sample_reg|].
  split; [apply geo_okb_ok; vm_compute; reflexivity|]. split; [apply reg_okb_ok; vm_compute; reflexivity|].
  conj_vm.
Qed.
Print Assumptions C21_keeps_data_refuted.

(** C22. *)
Theorem C22_extend : forall (E : Env), Exact E -> forall m other, geo_ok m -> reg_ok' m -> basics_exist m ->
  ((fst (upper other) <= fst (upper m))%Q -> (snd (upper other) <= snd (upper m))%Q ->
   (fst (lower m) <= fst (lower other))%Q -> (snd (lower m) <= snd (lower other))%Q ->
   extendToInclude other m = Ret true m) /\
  exists m', extendToInclude other m = Ret true m' /\ geo_ok m' /\ reg_ok' m' /\ aligned m m' /\
    layers m' = layers m /\ basic m' = basic m /\ frame m' = frame m /\ stamp m' = stamp m /\
    (forall l q v, inside m' q ->
       (world_value m' l q v <-> world_value m l q v \/ (~ inside m q /\ has_layer m l /\ v = unknown))).
Proof. exact @extend_final. Qed.
Print Assumptions C22_extend.

(** An extension by other's offset of a third of a cell. *)
Definition odd_patch : cmap :=
  after (setGeometry (E := exact_wrap) (1#1, 1#1)%Q (1#2) (17#12, -2#1)%Q) (new_map ["b"]%string).
Definition ext : cmap := after (extendToInclude (E := exact_wrap) odd_patch) sample.
Example C22_case : basics_exist sample /\ extendToInclude (E := exact_wrap) odd_patch sample = Ret true ext /\
  size ext = (8, 4) /\ (fst (upper ext) - fst (upper sample) == 3 * (1#2))%Q /\
  atPosition (E := exact_wrap) ext "a" (0, -9#4)%Q = Ok 13 /\ atPosition (E := exact_wrap) sample "a" (0, -9#4)%Q = Ok 13 /\
  atPosition (E := exact_wrap) ext "a" (1#2, -9#4)%Q = Ok 255.
Proof. split; [apply basics_existb_ok; vm_compute; reflexivity|]. conj_vm. Qed.

(** C23. On a common grid: growing by a cells at the upper and b at the lower end
    of an axis includes the other map unless b > a with b - a odd ... *)
Theorem C23_extend_includes : forall (E : Env), Exact E -> forall m other a0 a1 b0 b1,
  geo_ok m -> reg_ok' m -> basics_exist m ->
  grows_up (fst (upper m)) (fst (upper other)) (resn m) a0 -> grows_down (fst (lower m)) (fst (lower other)) (resn m) b0 ->
  grows_up (snd (upper m)) (snd (upper other)) (resn m) a1 -> grows_down (snd (lower m)) (snd (lower other)) (resn m) b1 ->
  (Z.Even (a0 - b0) \/ b0 <= a0) -> (Z.Even (a1 - b1) \/ b1 <= a1) ->
  exists m', extendToInclude other m = Ret true m' /\
    forall q, inside m q \/ inside other q -> inside m' q.
Proof. exact @extend_includes_final. Qed.
Print Assumptions C23_extend_includes.

(** ... and then it never does. *)
Theorem C23_extend_excludes : forall (E : Env), Exact E -> forall m other a0 a1 b0 b1,
  geo_ok m -> reg_ok' m -> basics_exist m -> geo_ok other ->
  grows_up (fst (upper m)) (fst (upper other)) (resn m) a0 -> grows_down (fst (lower m)) (fst (lower other)) (resn m) b0 ->
  grows_up (snd (upper m)) (snd (upper other)) (resn m) a1 -> grows_down (snd (lower m)) (snd (lower other)) (resn m) b1 ->
  (Z.Odd (a0 - b0) /\ a0 < b0) \/ (Z.Odd (a1 - b1) /\ a1 < b1) ->
  exists m' q, extendToInclude other m = Ret true m' /\ inside other q /\ ~ inside m' q.
Proof. exact @extend_excludes_final. Qed.
Print Assumptions C23_extend_excludes.

(** The corners of the extended map, on a common grid. *)
Theorem C23_extend_corners : forall (E : Env), Exact E -> forall m other a0 a1 b0 b1,
  geo_ok m -> reg_ok' m -> basics_exist m ->
  grows_up (fst (upper m)) (fst (upper other)) (resn m) a0 -> grows_down (fst (lower m)) (fst (lower other)) (resn m) b0 ->
  grows_up (snd (upper m)) (snd (upper other)) (resn m) a1 -> grows_down (snd (lower m)) (snd (lower other)) (resn m) b1 ->
  let off a b := if Z.even (a - b) || (b <=? a) then 0%Q else (2 * resn m)%Q in
  exists m', extendToInclude other m = Ret true m' /\
    (fst (upper m') == fst (upper m) + inject_Z a0 * resn m + off a0 b0)%Q /\
    (fst (lower m') == fst (lower m) - inject_Z b0 * resn m + off a0 b0)%Q /\
    (snd (upper m') == snd (upper m) + inject_Z a1 * resn m + off a1 b1)%Q /\
    (snd (lower m') == snd (lower m) - inject_Z b1 * resn m + off a1 b1)%Q.
Proof. exact @extend_aligned_final. Qed.
Print Assumptions C23_extend_corners.

(** far_patch grows the sample by 3 cells at the upper x end. *)
Example C23_case :
  grows_up (fst (upper sample)) (fst (upper far_patch)) (resn sample) 3 /\
  grows_down (fst (lower sample)) (fst (lower far_patch)) (resn sample) 0 /\
  grows_up (snd (upper sample)) (snd (upper far_patch)) (resn sample) 0 /\
  grows_down (snd (lower sample)) (snd (lower far_patch)) (resn sample) 0.
Proof.
  split; [right; conj_vm|]. split; [left; conj_vm|]. split; left; conj_vm.
Qed.

(** Doubles: a 5-cell line extended by one cell at its lower end. The result
    misses the other map and has lost one of our own cells. *)
Definition line (l c : Q) : cmap :=
  number_cells "a" 0 (after (setGeometry (E := binary64 BWrap) (l, 1#1)%Q (1#1) (c, 0)%Q) (new_map ["a"]%string)).
Theorem C23_extend_refuted : exists other m m' q q',
  geo_ok m /\ reg_ok' m /\ basics_exist m /\ geo_ok other /\
  extendToInclude (E := binary64 BWrap) other m = Ret true m' /\
  inside other q /\ ~ inside m' q /\
  atPosition (E := binary64 BWrap) m "a" q' = Ok 4 /\ atPosition (E := binary64 BWrap) m' "a" q' = Throw OutOfRange.
Proof.
  exists (line (3#1) (-2#1)%Q), (line (5#1) 0), (after (extendToInclude (E := binary64 BWrap) (line (3#1) (-2#1)%Q)) (line (5#1) 0)),
    (-3#1, 0)%Q, (-2#1, 0)%Q.
  split; [apply geo_okb_ok; vm_compute; reflexivity|]. split; [apply reg_okb_ok; vm_compute; reflexivity|].
  split; [apply basics_existb_ok; vm_compute; reflexivity|]. split; [apply geo_okb_ok; vm_compute; reflexivity|].
  conj_vm.
Qed.
Print Assumptions C23_extend_refuted.
