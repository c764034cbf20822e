(** Property C85: a cost computer that throws spoils the Inflate object. *)
From Coq Require Import ZArith QArith String List Bool Lia Sorted.
From Verif Require Import Base Mat GridMapMath GridIter CostMap Inflation Throwing Spec InflationSpec BaseLemmas CoreProofs CoreProofs2 CoreFinal MoveProofs AddDataProofs InflateProofs InflateFinal InflateEnv Samples PropInflate.
Import ListNotations.
Open Scope Z_scope.

(** What the computer is asked for the entry (i, j) of the table, on a map of
    resolution q. *)
Definition metres (F : fenv) (q : Q) (i j : Z) : Q := f32 F (f32 F q * hyp F i j).

(** The entry (i, j) has been computed, with result v, when the first exception comes. *)
Definition computed (F : fenv) (q : Q) (comp : Q -> option Z) (r i j v : Z) : Prop :=
  comp (metres F q i j) = Some v /\
  forall i' j', 0 <= i' <= r + 1 -> 0 <= j' <= r + 1 -> i' < i \/ i' = i /\ j' < j -> comp (metres F q i' j') <> None.

(** The ending of a call in which the computer does not throw, as in Inflation.v. *)
Definition plain {P} (x : ending P) : option (out cmap (inflater P)) :=
  match x with Done o m => Some (Ret o m) | Missing e _ m => Some (Exn e m) | Undefined f => Some (Flt f) | Thrown _ _ => None end.

Lemma In_entries r i j : In (i, j) (entries r) <-> 0 <= i < r + 2 /\ 0 <= j < r + 2.
Proof.
  unfold entries. rewrite in_flat_map. split.
  - intros (x & Hx & H). apply in_map_iff in H as (y & H & Hy). injection H as <- <-. now rewrite In_zseq in Hx, Hy.
  - intros [H1 H2]. exists i. rewrite In_zseq. split; auto. apply in_map_iff. exists j. rewrite In_zseq. auto.
Qed.

(** The entries come in order. *)
Lemma earlier_spec a b : earlier a b = true <-> fst a < fst b \/ fst a = fst b /\ snd a < snd b.
Proof. unfold earlier. rewrite orb_true_iff, andb_true_iff, !Z.ltb_lt, Z.eqb_eq. tauto. Qed.

Definition in_turn (a b : idx) : Prop := earlier a b = true.

Lemma sorted_app {A} (R : A -> A -> Prop) l1 l2 : StronglySorted R l1 -> StronglySorted R l2 ->
  (forall x y, In x l1 -> In y l2 -> R x y) -> StronglySorted R (l1 ++ l2).
Proof.
  induction 1 as [|a l1 S IH FA]; intros S2 H; cbn; auto. constructor.
  - apply IH; auto. intros; apply H; auto. now right.
  - rewrite Forall_forall in *. intros x Hx. apply in_app_or in Hx as [Hx|Hx]; auto. apply H; auto. now left.
Qed.

Lemma entries_sorted r : StronglySorted in_turn (entries r).
Proof.
  assert (G : forall k b, StronglySorted in_turn (flat_map (fun i => map (fun j => (i, j)) (zseq (r + 2))) (zseq_aux b k))).
  { induction k as [|k IH]; intros b; cbn; [constructor|]. apply sorted_app; auto.
    - unfold zseq. generalize 0 as c. induction (Z.to_nat (r + 2)) as [|n IHn]; intros c; cbn; constructor; auto.
      apply Forall_forall. intros x Hx. apply in_map_iff in Hx as (j & <- & Hj). apply zseq_aux_In in Hj.
      apply earlier_spec. cbn. lia.
    - intros x y Hx Hy. apply in_map_iff in Hx as (j & <- & _). apply in_flat_map in Hy as (i & Hi & Hy).
      apply in_map_iff in Hy as (j' & <- & _). apply zseq_aux_In in Hi. apply earlier_spec. cbn. lia. }
  apply G.
Qed.

Lemma find_sorted p l e : StronglySorted in_turn l -> find p l = Some e -> forall x, In x l -> in_turn x e -> p x = false.
Proof.
  induction 1 as [|a l S IH FA]; cbn; [discriminate|]. destruct (p a) eqn:K.
  - intros H x Hx T. injection H as ->. exfalso. rewrite Forall_forall in FA. unfold in_turn in *. apply earlier_spec in T.
    destruct Hx as [->|Hx]; [lia|]. specialize (FA x Hx). apply earlier_spec in FA. lia.
  - intros H x [<-|Hx] T; auto.
Qed.

(** A computer that never throws: the calls of Inflation.v. Nor does it matter what the
    computer does when the radius in cells has not changed. *)
Theorem C85_plain : forall (E : Env) F P g ls ld rad (o : inflater P) m,
  (forall comp, plain (inflate' F P g ls ld rad (fun d => Some (comp d)) o m) = Some (inflate F P ls ld rad comp o m)) /\
  (cell_radius rad m = Ok (c_rad (if_cache o)) -> forall comp comp', plain (inflate' F P g ls ld rad comp o m) = Some (inflate F P ls ld rad comp' o m)).
Proof.
  intros E F P g ls ld rad o m. split.
  - intros comp. unfold inflate', inflate. destruct (get m ls) as [src| |]; auto. destruct (add ld src m) as [u m1| |]; auto.
    destruct (cell_radius rad m1) as [r| |]; cbn [rbind]; auto.
    assert (FN : find (fun e => match Some (comp (f32 F (f32 F (resn m1) * hyp F (fst e) (snd e)))) with None => true | Some _ => false end) (entries r) = None).
    { induction (entries r); auto. }
    destruct (r =? c_rad (if_cache o)).
    + destruct (bind _ _ _); auto.
    + unfold compute_caches', compute_caches. rewrite FN. destruct (_ <? _); auto. destruct (bind _ _ _); auto.
  - intros CR comp comp'. unfold inflate', inflate. destruct (get m ls) as [src| |]; auto. destruct (add ld src m) as [u m1| |] eqn:A; auto.
    assert (RS : resn m1 = resn m).
    { unfold add in A. destruct (negb _); [discriminate|]. destruct (exists_layer m ld); injection A as <- <-; reflexivity. }
    rewrite (cell_radius_resn rad m m1 RS), CR. cbn [rbind]. rewrite Z.eqb_refl. destruct (bind _ _ _); auto.
Qed.
Print Assumptions C85_plain.

(** A computer that throws while the table is filled: the destination layer is a copy of
    the source, and the next call with the same radius in cells, whatever its
    computer, takes the costs that were not computed from the memory of the
    table. *)
Theorem C85_thrown : forall (E : Env) F P (PS : pq_spec P) g ls ld rad comp o x m r i0 j0,
  used F P o x -> reg_ok' m -> has_layer m ls -> cell_radius rad m = Ok r -> r < 2 ^ 32 - 2 -> dist_ok (hyp F) r ->
  (forall r0 q0 c0, x = Some (r0, q0, c0) -> r0 <> r) ->
  0 <= i0 <= r + 1 -> 0 <= j0 <= r + 1 -> comp (metres F (resn m) i0 j0) = None ->
  exists o' m', inflate' F P g ls ld rad comp o m = Thrown o' m' /\
    get m' ld = get m ls /\ (forall l, l <> ld -> get m' l = get m l) /\ same_meta m m' /\
    layers m' = (if exists_layer m ld then layers m else layers m ++ [ld]) /\
    forall g2 ls2 ld2 rad2 comp2 m2 b, reg_ok' m2 -> cell_radius rad2 m2 = Ok r -> (forall s, value_at m2 ls2 s lethal <-> s = b) ->
      exists o2 m3, inflate' F P g2 ls2 ld2 rad2 comp2 o' m2 = Done o2 m3 /\
        forall i v, value_at m2 ls2 i v ->
          let a := Z.abs (fst i - fst b) in let c := Z.abs (snd i - snd b) in
          (forall w, d2 i b <= r * r -> computed F (resn m) comp r a c w -> value_at m3 ld2 i (inflated v w)) /\
          (d2 i b <= r * r -> ~ (exists w, computed F (resn m) comp r a c w) -> value_at m3 ld2 i (inflated v (g a c))) /\
          (r * r < d2 i b -> value_at m3 ld2 i v).
Proof.
  intros E F P PS g ls ld rad comp o x m r i0 j0 U R HL CR SM HD NX I0 J0 TH.
  pose proof (cell_radius_nonneg _ _ _ CR) as R0. destruct HL as [src Hsrc]. destruct (r_mat _ (proj1 R) _ _ Hsrc) as (Ws & S1 & S2).
  destruct (add_ok ld src m S1 S2) as (m1 & A1 & A2 & A3 & A4 & A5 & A6).
  assert (RS : resn m1 = resn m) by (now destruct A4 as (_ & _ & _ & _ & -> & _)).
  pose proof (used_holds F P PS _ _ U) as (W & Q0 & HC).
  assert (NR : (r =? c_rad (if_cache o)) = false).
  { apply Z.eqb_neq. destruct x as [[[r0 q0] c0]|].
    - destruct HC as (_ & ->). cbn. intros ->. now apply (NX r0 q0 c0).
    - subst o. cbn. lia. }
  set (at_entry := fun i j => comp (metres F (resn m) i j)).
  set (thr := fun e : idx => match at_entry (fst e) (snd e) with None => true | Some _ => false end).
  destruct (find thr (entries r)) as [e|] eqn:FE.
  2:{ exfalso. apply find_none with (x := (i0, j0)) in FE; [|apply In_entries; lia]. unfold thr, at_entry in FE. cbn in FE. now rewrite TH in FE. }
  destruct (find_some _ _ FE) as (IE & TE). destruct e as [ei ej]. apply In_entries in IE.
  set (cost := fun i j => match at_entry i j with Some v => v | None => 0 end).
  set (cost' := fun i j => if earlier (i, j) (ei, ej) then cost i j else g i j).
  exists (Inflater (Cache r (r + 2) (hyp F) cost') (if_queue o)), m1. split.
  { unfold inflate'. unfold get at 1. rewrite Hsrc, A1, (cell_radius_resn rad m m1 RS), CR. cbn [rbind]. rewrite NR, RS.
    unfold compute_caches'. cbv zeta. rewrite !Z.mod_small by lia. assert ((r + 1 <? r + 2) = true) as -> by lia.
    match goal with |- context [find ?p (entries r)] => change (find p (entries r)) with (find thr (entries r)) end.
    rewrite FE. reflexivity. }
  split. { rewrite A2. unfold get. now rewrite Hsrc. }
  split; [exact A3|]. split; [exact A4|]. split; [exact A5|].
  intros g2 ls2 ld2 rad2 comp2 m2 b R2 CR2 ON.
  set (o' := Inflater (Cache r (r + 2) (hyp F) cost') (if_queue o)).
  assert (HL2 : has_layer m2 ls2). { destruct (proj2 (ON b) eq_refl) as (d & D & _). now exists d. }
  destruct (inflate_tables F P PS o' ls2 ld2 rad2 (fun _ => 0) m2 r cost') as (o2 & m3 & hit & RUN & O); auto.
  { cbn. now rewrite Z.eqb_refl. }
  exists o2, m3. split.
  { pose proof (proj2 (C85_plain E F P g2 ls2 ld2 rad2 o' m2) CR2 comp2 (fun _ => 0)) as PL. rewrite RUN in PL.
    destruct (inflate' _ _ _ _ _ _ _ _ _); cbn in PL; congruence. }
  intros i v V a c. pose proof (outcome_single r cost' ls2 ld2 m2 m3 hit O R2 b i v ON V) as H.
  unfold at_offset in H. fold a c in H.
  assert (CE : forall w, computed F (resn m) comp r a c w -> cost' a c = w).
  { intros w (K1 & K2). unfold cost'. destruct (earlier (a, c) (ei, ej)) eqn:EA.
    - unfold cost, at_entry. now rewrite K1.
    - exfalso. unfold thr, at_entry in TE. cbn in TE.
      assert (~ (a < ei \/ a = ei /\ c < ej)) by (intros K; apply (earlier_spec (a, c) (ei, ej)) in K; congruence).
      destruct (Z.eq_dec a ei) as [->|NA]; [destruct (Z.eq_dec c ej) as [->|NC]|].
      + now rewrite K1 in TE.
      + specialize (K2 ei ej ltac:(lia) ltac:(lia) ltac:(lia)). destruct (comp (metres F (resn m) ei ej)); [discriminate|]. now apply K2.
      + specialize (K2 ei ej ltac:(lia) ltac:(lia) ltac:(lia)). destruct (comp (metres F (resn m) ei ej)); [discriminate|]. now apply K2. }
  split; [|split].
  - intros w D K. destruct (Z_le_gt_dec (d2 i b) (r * r)); [|lia]. now rewrite (CE w K) in H.
  - intros D K. destruct (Z_le_gt_dec (d2 i b) (r * r)); [|lia].
    assert (cost' a c = g a c) as <-; auto. unfold cost'. destruct (earlier (a, c) (ei, ej)) eqn:EA; auto. exfalso. apply K.
    assert (AB : 0 <= a <= r /\ 0 <= c <= r). { unfold d2 in D. unfold a, c. split; split; try lia; nia. }
    assert (NT : forall i' j', 0 <= i' <= r + 1 -> 0 <= j' <= r + 1 -> in_turn (i', j') (ei, ej) -> comp (metres F (resn m) i' j') <> None).
    { intros i' j' HI HJ T. pose proof (find_sorted thr _ _ (entries_sorted r) FE (i', j')) as NF. rewrite In_entries in NF.
      specialize (NF ltac:(lia) T). unfold thr, at_entry in NF. cbn in NF. intros Z. now rewrite Z in NF. }
    destruct (comp (metres F (resn m) a c)) as [w|] eqn:CW; [|exfalso; apply (NT a c); auto; lia].
    exists w. split; auto. intros i' j' HI HJ L. apply NT; auto. unfold in_turn in *. rewrite earlier_spec in *. cbn [fst snd] in *. lia.
  - intros D. destruct (Z_le_gt_dec (d2 i b) (r * r)); [lia|]. exact H.
Qed.
Print Assumptions C85_thrown.

(** Along a corridor of four cells, an obstacle at its start and a computer that
    refuses distances beyond 1.2 m: the second call, with a computer that never
    throws, still sees the memory of the table. With zeros in it, the cell
    at 2 m stays free; with 254, it becomes an obstacle. *)
Definition picky (d : Q) : option Z := if Qle_bool d (6 # 5) then Some (200 - Qnum d / QDen d * 50) else None.

Definition first (g : Z -> Z -> Z) := inflate' (E := exact_wrap) float_env (list_queue true) g "a" "b" 2 picky (new_inflater _) corridor.
Definition spoiled (g : Z -> Z -> Z) := match first g with Thrown o _ => o | _ => new_inflater _ end.
Definition copied (g : Z -> Z -> Z) := match first g with Thrown _ m => m | _ => corridor end.
Definition second' (g : Z -> Z -> Z) : ending (list_queue true) :=
  inflate' (E := exact_wrap) float_env (list_queue true) g "a" "b" 2 (fun _ => Some 100) (spoiled g) (copied g).
Definition second (g : Z -> Z -> Z) : out cmap (inflater (list_queue true)) :=
  match second' g with Done o m => Ret o m | _ => Flt OutOfFuel end.

Lemma first_thrown g : match first g with Thrown _ _ => true | _ => false end = true -> first g = Thrown (spoiled g) (copied g).
Proof. unfold spoiled, copied. now destruct (first g). Qed.

Lemma done {P} (x : ending P) o m : match x with Done _ _ => true | _ => false end = true ->
  x = Done (match x with Done o _ => o | _ => o end) (match x with Done _ m => m | _ => m end).
Proof. now destruct x. Qed.

Example C85_case :
  used (E := exact_wrap) float_env (list_queue true) (new_inflater _) None /\ reg_ok' corridor /\ has_layer corridor "a" /\
  cell_radius (E := exact_wrap) 2 corridor = Ok 2 /\ dist_ok (hyp float_env) 2 /\ picky (metres float_env (resn corridor) 0 2) = None /\
  computed float_env (resn corridor) picky 2 0 1 150 /\
  layer_after "b" (second (fun _ _ => 0)) = Ok (Mat 1 4 [254; 150; 0; 0]) /\
  layer_after "b" (second (fun _ _ => 254)) = Ok (Mat 1 4 [254; 150; 254; 0]).
Proof.
  split; [constructor|]. split; [now apply reg_okb_ok|]. split; [now apply exists_has|]. split; [vm_compute; reflexivity|].
  split; [apply float_env_ok; lia|]. split; [vm_compute; reflexivity|]. split; [|split; vm_compute; reflexivity].
  split; [vm_compute; reflexivity|]. intros i j Hi Hj L. assert (i = 0 /\ j = 0) as (-> & ->) by lia. vm_compute. discriminate.
Qed.

(** So a call with a computer that never throws can leave a cell within the radius of
    an obstacle free, although that computer gives every distance a cost. *)
Theorem C85_spoiled_refuted : exists (E : Env) F P (PS : pq_spec P) g rad comp comp2 (o' o2 : inflater P) m m' m'' i b r,
  reg_ok m /\ inflate' F P g "a" "b" rad comp (new_inflater P) m = Thrown o' m' /\
  inflate' F P g "a" "b" rad (fun d => Some (comp2 d)) o' m' = Done o2 m'' /\
  cell_radius rad m' = Ok r /\ value_at m' "a" b lethal /\ value_at m' "a" i free /\ d2 i b <= r * r /\
  (forall d, free < comp2 d) /\ value_at m'' "b" i free.
Proof.
  set (g := fun _ _ : Z => 0).
  exists exact_wrap, float_env, (list_queue true), (list_queue_spec true), g, 2%Q, picky, (fun _ => 100), (spoiled g),
    (match second' g with Done o _ => o | _ => spoiled g end), corridor, (copied g), (match second' g with Done _ m => m | _ => copied g end), (0, 2), (0, 0), 2.
  split; [now apply reg_okb_ok|]. split; [apply first_thrown; vm_compute; reflexivity|]. split; [apply done; vm_compute; reflexivity|]. split; [vm_compute; reflexivity|].
  split; [apply at_value; vm_compute; reflexivity|]. split; [apply at_value; vm_compute; reflexivity|].
  split; [vm_compute; congruence|]. split; [intros d; vm_compute; reflexivity|]. apply at_value; vm_compute; reflexivity.
Qed.
Print Assumptions C85_spoiled_refuted.
