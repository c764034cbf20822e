(** Every call of the library keeps the layer registry consistent and the costs
    within a given set of values. *)
From Coq Require Import ZArith QArith Qround Qabs String List Bool Lia.
From Coq Require Import ZifyBool.
From Verif Require Import Base Mat GridMapMath GridIter CostMap History Inflation Converter Bundles Spec BaseLemmas CoreProofs.
Import ListNotations.
Open Scope Z_scope.

(* ------------------------------------------------------------------ *)
(** ** The registry *)

(** add() with a matrix that has the right number of coefficients if its
    dimensions make sense. *)
Lemma pres_add_any l d : (0 <= mrows d -> 0 <= mcols d -> wf_mat d) -> pres reg_ok' (add l d).
Proof.
  intros W m R. destruct (Z.eqb_spec (fst (size m)) (mrows d)) as [A|A].
  - destruct (Z.eqb_spec (snd (size m)) (mcols d)) as [B|B].
    + apply pres_add'; auto. destruct R as (_ & R0 & R1). apply W; lia.
    + unfold add. apply Z.eqb_neq in B. rewrite B, andb_false_r. exact I.
  - unfold add. apply Z.eqb_neq in A. rewrite A. exact I.
Qed.

Section Reg.
Context {E : Env} (RN : rnd_nonneg).

Lemma pres_add_array la : pres reg_ok' (add_array la).
Proof.
  destruct la as [l [dims a]]. unfold add_array, array_to_matrix. cbn [fst snd a_dims a_data].
  destruct dims as [|d0 [|d1 t]]; try (apply pres_bind; [apply pres_lift|intros]; intros m H; exact I).
  1,2: intros m H; exact I.
  destruct (String.eqb (fst d0) row_index).
  { intros m H. apply pres_add'; auto. unfold wf_mat; cbn; lia. }
  destruct (Z.ltb_spec (Z.of_nat (length a)) (snd d1 * snd d0)).
  { intros m H'. exact I. }
  intros m Hm. unfold bind. cbn [lift]. apply pres_add_any; auto. cbn. intros A B. split; auto. split; auto. cbn.
  rewrite firstn_length. nia.
Qed.

Lemma pres_fromMessage g : pres reg_ok' (fromMessage g).
Proof.
  unfold fromMessage. apply pres_bind; [apply pres_modify; intros m H; now apply (reg_meta m)|intros _].
  apply pres_bind; [apply pres_modify; intros m H; now apply (reg_meta m)|intros _].
  apply pres_bind; [now apply pres_setGeometry|intros _].
  apply pres_if; [apply pres_ret|].
  apply pres_bind; [apply pres_mfor; apply pres_add_array|intros _].
  apply pres_bind; [apply pres_modify; intros m H; now apply (reg_meta m)|intros _].
  apply pres_bind; [apply pres_modify; intros m H; now apply (reg_meta m)|intros _].
  apply pres_ret.
Qed.

Lemma pres_image_cell {C : Cv} im depth l i : pres reg_ok' (image_cell im depth l i).
Proof.
  intros m H. unfold image_cell. destruct (_ && _); [|exact I]. destruct (nth_error _ _); [|exact I].
  destruct (px_cost _ _ _); [now apply pres_at_set|exact H].
Qed.

Lemma pres_addLayerFromROSImage {C : Cv} im l : pres reg_ok' (addLayerFromROSImage im l).
Proof.
  unfold addLayerFromROSImage. destruct (depth_of _); [|apply pres_ret]. apply pres_if; [apply pres_ret|].
  apply pres_bind; [apply pres_add_value|intros _]. apply pres_bind; [intros m H; exact H|intros m1].
  apply pres_if; [apply pres_ret|]. apply pres_bind; [apply pres_lift|intros vs].
  apply pres_bind; [apply pres_mfor; intros; apply pres_image_cell|intros _; apply pres_ret].
Qed.

Lemma pres_fromImageBundle {C : Cv} b : pres reg_ok' (fromImageBundle b).
Proof.
  unfold fromImageBundle. destruct b as [b|]; [|apply pres_throw].
  destruct (y_frame (b_yaml b)), (y_cx (b_yaml b)), (y_cy (b_yaml b)), (y_resn (b_yaml b)), (y_nx (b_yaml b)), (y_ny (b_yaml b)); try apply pres_throw.
  apply pres_bind; [apply pres_lift|intros ls].
  apply pres_bind; [now apply pres_setGeometry|intros _].
  apply pres_bind; [apply pres_modify; intros m H; now apply (reg_meta m)|intros _].
  apply pres_bind; [apply pres_modify; intros m H; now apply (reg_meta m)|intros _].
  apply pres_mfor. intros p. apply pres_bind; [apply pres_addLayerFromROSImage|intros _; apply pres_ret].
Qed.

Lemma pres_deflate k ls ld : pres reg_ok' (deflate k ls ld).
Proof.
  intros m H. unfold deflate. destruct (get m ls) as [src|e|f]; [|exact H|exact I].
  apply post_bind; [apply pres_add_value|exact H|]. intros _ m1 H1. apply pres_mfor; auto. intros j.
  apply pres_mfor. intros i m2 H2. destruct (mget src i j); [now apply pres_at_set|exact I].
Qed.
End Reg.

(** The map inside an inflation run. *)
Lemma pres_enqueue (P : pqueue) (J : cmap -> Prop) c ls ld n s :
  (forall v m, J m -> (exists old k, at_ m ls n = Ok old /\ lookup c (c_cost c) n s = Ok k /\ v = combine old k) -> post J (at_set ld n v m)) ->
  pres (fun st => J (is_map st)) (enqueue P c ls ld n s).
Proof.
  intros A st H. unfold enqueue. destruct (mget _ _ _) as [b|]; [|exact I]. destruct (b =? 0); [|exact H].
  destruct (lookup c (c_dist c) n s); [|exact H|exact I]. destruct (Qlt_bool _ _); [exact H|].
  destruct (lookup c (c_cost c) n s) as [k|e|f] eqn:K; [|exact H|destruct (at_ (is_map st) ls n); solve [exact H|exact I]]. destruct (at_ (is_map st) ls n) as [old|e|f] eqn:O; [|exact H|exact I].
  assert (post J (at_set ld n (combine old k) (is_map st))) as W by (apply A; eauto).
  destruct (at_set _ _ _ _) as [u m'|e m'|f]; [|exact W|exact I]. destruct (mset _ _ _ _); [exact W|exact I].
Qed.

Lemma pres_fire (P : pqueue) (J : cmap -> Prop) c ls ld sz :
  (forall n s, pres (fun st => J (is_map st)) (enqueue P c ls ld n s)) ->
  forall fuel, pres (fun st => J (is_map st)) (brushfire P c ls ld sz fuel).
Proof.
  intros Q. induction fuel as [|f IH]; intros st H; cbn [brushfire]; (destruct (pq_pop _ _) as [[q rest]|]; [|exact H]); [exact I|].
  apply post_bind; [|exact H|intros _; apply IH]. unfold spread.
  repeat (apply pres_bind; [apply pres_if; [apply Q|apply pres_ret]|intros _]).
  apply pres_if; [apply Q|apply pres_ret].
Qed.

Lemma pres_scan (P : pqueue) (J : cmap -> Prop) c ls ld rows cols :
  (forall n s, pres (fun st => J (is_map st)) (enqueue P c ls ld n s)) ->
  pres (fun st => J (is_map st)) (scan P c ls ld rows cols).
Proof.
  intros Q. unfold scan. apply pres_mfor. intros j. apply pres_mfor. intros i st H.
  destruct (at_ _ _ _); [|exact H|exact I]. destruct (_ =? _); [now apply Q|exact H].
Qed.

(** What the run needs from the table that is used. *)
Definition table_of {E : Env} (F : fenv) {P : pqueue} (rad : Q) (comp : Q -> Z) (o : inflater P) (m : cmap) : res cache :=
  rbind (cell_radius rad m) (fun r => if r =? c_rad (if_cache o) then Ok (if_cache o) else compute_caches F r (f32 F (resn m)) comp).

Lemma post_inflate {E : Env} (F : fenv) (P : pqueue) (J : cmap -> Prop) ls ld rad comp o m : J m ->
  (forall src, get m ls = Ok src -> post J (add ld src m)) ->
  (forall m1 c n s, J m1 -> table_of F rad comp o m1 = Ok c ->
     pres (fun st => J (is_map st)) (enqueue P c ls ld n s)) ->
  post J (inflate F P ls ld rad comp o m).
Proof.
  intros H A Q. unfold inflate. destruct (get m ls) as [src|e|f]; [|exact H|exact I]. specialize (A src eq_refl).
  destruct (add ld src m) as [u m1|e m1|f]; [|exact A|exact I]. fold (table_of F rad comp o m1). cbn [post] in A.
  destruct (table_of F rad comp o m1) as [c|e|f] eqn:T; [|exact A|exact I]. specialize (Q m1 c).
  match goal with |- context [bind ?a ?b ?y] => pose proof (post_bind (fun st => J (is_map st)) a b y) as K end.
  match type of K with ?x -> ?z -> ?y -> _ => assert x as K1; [|assert y as K2] end.
  - apply pres_scan; auto.
  - intros _ st' H'. apply pres_fire; auto.
  - specialize (K K1 A K2). destruct (bind _ _ _); exact K.
Qed.

Lemma pres_inflate {E : Env} (F : fenv) (P : pqueue) ls ld rad comp o : pres reg_ok' (inflate F P ls ld rad comp o).
Proof.
  intros m H. apply post_inflate; auto.
  - intros src G. unfold get in G. destruct (aget (data m) ls) as [d|] eqn:D; [|discriminate]. injection G as <-.
    apply pres_add'; auto. apply (r_mat _ (proj1 H) _ _ D).
  - intros. apply pres_enqueue. intros v m' H' _. now apply pres_at_set.
Qed.

(* ------------------------------------------------------------------ *)
(** ** The values *)

(** All coefficients of all layers satisfy V. *)
Definition vals (V : Z -> Prop) (m : cmap) : Prop := Forall (fun kd => Forall V (mcoef (snd kd))) (data m).

Section Vals.
Context (V : Z -> Prop) (V255 : V 255) (V0 : V 0).

Let D := Forall (fun kd : string * mat => Forall V (mcoef (snd kd))).

Lemma D_aget d l x : D d -> aget d l = Some x -> Forall V (mcoef x).
Proof.
  induction d as [|[k y] d IH]; intros H; [discriminate|]. inversion H; subst. cbn. destruct (String.eqb l k); [|auto].
  intros K. injection K as <-. assumption.
Qed.

Lemma D_aset d l x : D d -> Forall V (mcoef x) -> D (aset d l x).
Proof.
  intros H X. induction H as [|[k y] d A B IH]; cbn; [constructor|]. destruct (String.eqb l k); constructor; auto.
Qed.

Lemma D_ainsert d l x : D d -> Forall V (mcoef x) -> D (ainsert d l x).
Proof.
  intros H X. unfold ainsert. destruct (amem d l); auto. apply Forall_app. split; auto.
Qed.

Lemma D_aput d l x : D d -> Forall V (mcoef x) -> D (aput d l x).
Proof.
  intros H X. unfold aput. destruct (amem d l); [now apply D_aset|]. apply Forall_app. split; auto.
Qed.

Lemma D_adel d l : D d -> D (adel d l).
Proof. intros H. induction H as [|[k y] d A B IH]; cbn; [constructor|]. destruct (String.eqb l k); auto. now constructor. Qed.

Lemma D_const (r c : mat -> Z) (v : mat -> Z) d : (forall x, V (v x)) -> D (map (fun kv => (fst kv, mconst (r (snd kv)) (c (snd kv)) (v (snd kv)))) d).
Proof. intros H. apply Forall_map, Forall_forall. intros [k x] _. cbn. apply Forall_forall. intros y Y. apply repeat_spec in Y. subst. auto. Qed.

Lemma V_repeat v n : V v -> Forall V (repeat v n).
Proof. intros H. apply Forall_forall. intros y Y. apply repeat_spec in Y. now subst. Qed.

Lemma V_lupd l n v : Forall V l -> V v -> Forall V (lupd l n v).
Proof. intros H X. revert n. induction H as [|a l A B IH]; intros [|n]; cbn; auto. Qed.

Lemma V_nth l n v : Forall V l -> nth_error l n = Some v -> V v.
Proof. intros H K. rewrite Forall_forall in H. apply H. now apply nth_error_In in K. Qed.

Lemma V_mget d i j v : Forall V (mcoef d) -> mget d i j = Some v -> V v.
Proof. unfold mget. intros H. destruct (in_mat d i j); [|discriminate]. now apply V_nth. Qed.

Lemma V_cell d i j : Forall V (mcoef d) -> V (cell d i j).
Proof. intros H. unfold cell. destruct (mget d i j) eqn:K; auto. eapply V_mget; eauto. Qed.

Lemma V_mbuild r c f : (forall i j, V (f i j)) -> Forall V (mcoef (mbuild r c f)).
Proof. intros H. cbn. apply Forall_map, Forall_forall. auto. Qed.

Lemma vals_at m l i v : vals V m -> at_ m l i = Ok v -> V v.
Proof.
  unfold at_. intros H. destruct (aget (data m) l) as [d|] eqn:K; [|discriminate].
  destruct (mget d _ _) eqn:G; cbn; [|discriminate]. intros Q. injection Q as <-. eapply V_mget; [|eassumption]. eapply D_aget; eauto.
Qed.

(** Only the data matters. *)
Lemma vals_meta m m' : data m' = data m -> vals V m -> vals V m'.
Proof. unfold vals. now intros ->. Qed.
Ltac vm := apply pres_modify; intros ?m ?H; now apply (vals_meta m).

Lemma vp_add l d : Forall V (mcoef d) -> pres (vals V) (add l d).
Proof.
  intros W m H. unfold add. destruct (negb _); [exact I|]. destruct (exists_layer m l); cbn.
  - now apply D_aset.
  - now apply D_ainsert.
Qed.
Lemma vp_add_value l v : V v -> pres (vals V) (add_value l v).
Proof. intros W m H. apply vp_add; auto. now apply V_repeat. Qed.
Lemma vp_erase l : pres (vals V) (erase l).
Proof. intros m H. unfold erase. destruct (amem (data m) l); cbn [negb]; [|exact H]. destruct (negb _); now apply D_adel. Qed.
Lemma vp_clear l : pres (vals V) (clear l).
Proof. intros m H. unfold clear. destruct (aget (data m) l) eqn:K; [|exact H]. cbn. apply D_aset; auto. cbn. now apply V_repeat. Qed.
Lemma vp_clearAll : pres (vals V) clearAll.
Proof. apply pres_modify. intros m H. apply (D_const mrows mcols (fun _ => NO_INFORMATION)). auto. Qed.
Lemma vp_at_set l i v : V v -> pres (vals V) (at_set l i v).
Proof.
  intros X m H. unfold at_set. destruct (aget (data m) l) eqn:K; [|exact H]. unfold mset. destruct (in_mat _ _ _); [|exact I].
  cbn. apply D_aset; auto. cbn. apply V_lupd; auto. eapply D_aget; eauto.
Qed.
Lemma vp_clear_block i j h w l : pres (vals V) (clear_block i j h w l).
Proof.
  intros m H. unfold clear_block. destruct (aget (data m) l) eqn:K; [|exact H]. unfold mfill. destruct (block_ok _ _ _ _ _); [|exact I].
  apply D_aset; auto. apply V_mbuild. intros a b. destruct (in_block _ _ _ _ _ _); auto. apply V_cell. eapply D_aget; eauto.
Qed.

Section Core.
Context {E : Env}.

Lemma vp_setGeometry l r p : pres (vals V) (setGeometry l r p).
Proof.
  unfold setGeometry. apply pres_if; [apply pres_abort|].
  apply pres_bind; [apply pres_modify; intros m H; apply (D_const (fun _ => _) (fun _ => _) (fun _ => 0)); auto|intros _].
  apply pres_bind; [apply vp_clearAll|intros _]. vm.
Qed.
Lemma vp_clearRows i n : pres (vals V) (clearRows i n).
Proof. intros m H. unfold clearRows. refine (pres_mfor _ _ _ _ m H). intros; apply vp_clear_block. Qed.
Lemma vp_clearCols i n : pres (vals V) (clearCols i n).
Proof. intros m H. unfold clearCols. refine (pres_mfor _ _ _ _ m H). intros; apply vp_clear_block. Qed.
Lemma vp_move_axis b k : pres (vals V) (move_axis b k).
Proof.
  intros m Hm. unfold move_axis. destruct (k =? 0); auto.
  destruct (_ <=? Z.abs k). { apply post_bind; auto using vp_clearAll. }
  assert (forall i n, pres (vals V) ((if b then clearRows else clearCols) i n)) as C
    by (destruct b; intros; [apply vp_clearRows|apply vp_clearCols]).
  destruct (_ <=? _).
  - apply post_bind; auto.
  - apply post_bind; auto. intros _ s Hs. apply post_bind; auto.
Qed.
Lemma vp_move p : pres (vals V) (move p).
Proof.
  intros m Hm. unfold move. apply post_bind; auto using vp_move_axis. intros r0 s Hs.
  apply post_bind; auto using vp_move_axis. intros r1 s' Hs'.
  destruct (match bpol with BWrap => _ | BClamp => _ end); cbn; auto.
Qed.

Lemma post_lift {A B S} (Q : S -> Prop) (r : res A) (f : A -> M S B) s : Q s -> (forall a, r = Ok a -> post Q (f a s)) -> post Q (bind (lift r) f s).
Proof. intros H K. unfold bind, lift. destruct r; cbn; auto. Qed.

Lemma vp_copy_from old i : vals V old -> pres (vals V) (copy_from old i).
Proof.
  intros O m Hm. unfold copy_from. apply post_lift; auto. intros [|] _; [exact Hm|].
  destruct (getPosition m i); [|exact I]. destruct (negb _); [exact Hm|].
  apply pres_mfor; auto. intros l m' H'. apply post_lift; auto. intros w K. apply vp_at_set; auto. now apply (vals_at old) in K.
Qed.
Lemma vp_extend o : pres (vals V) (extendToInclude o).
Proof.
  intros m Hm. unfold extendToInclude.
  destruct (extend_axis _ _ _ _) as [[cx Lx] bx]. destruct (extend_axis (snd (pos m)) _ _ _) as [[cy Ly] by_].
  destruct (negb _); auto.
  apply post_bind; auto using vp_setGeometry. intros _ s Hs. apply post_bind; auto.
  { apply pres_modify; auto. }
  intros _ s1 Hs1. apply post_bind; auto.
  intros s2 Hs2. apply post_lift; auto. intros vs _. apply pres_mfor; auto.
  intros; now apply vp_copy_from.
Qed.
Lemma vp_merge_cell o w ls i : vals V o -> pres (vals V) (merge_cell o w ls i).
Proof.
  intros O m Hm. unfold merge_cell. apply post_lift; auto. intros v _. destruct (_ && _); [exact Hm|].
  destruct (getPosition m i); [|exact I]. destruct (negb _); [exact Hm|].
  apply pres_mfor; auto. intros l m' H'. apply post_lift; auto. intros ok _. destruct (negb _); [exact H'|].
  apply post_lift; auto. intros x K. apply vp_at_set; auto. now apply (vals_at o) in K.
Qed.
Lemma vp_addDataFrom o e w c ls : vals V o -> pres (vals V) (addDataFrom o e w c ls).
Proof.
  intros O. unfold addDataFrom. apply pres_bind.
  { destruct e; [apply vp_extend|apply pres_ret]. }
  intros _. apply pres_bind.
  { apply pres_mfor; intros l m Hm. unfold add_missing. destruct (smem l (layers m)); auto. now apply vp_add_value. }
  intros _. apply pres_bind; [|intros; apply pres_ret].
  intros s Hs. apply post_lift; auto. intros vs _. apply pres_mfor; auto.
  intros; now apply vp_merge_cell.
Qed.

(** The costs handed to a call satisfy V. *)
Definition op_vals (o : op) : Prop :=
  match o with
  | OpAdd _ d => Forall V (mcoef d)
  | OpAddValue _ v | OpAt _ _ v | OpAtPosition _ _ v => V v
  | OpAddDataFrom o _ _ _ _ => vals V o
  | _ => True
  end.

Lemma vp_run_op o : op_vals o -> pres (vals V) (run_op o).
Proof.
  intros H. destruct o; cbn [op_vals run_op] in *.
  - now apply vp_add.
  - now apply vp_add_value.
  - apply pres_ignore, vp_erase.
  - apply vp_clear.
  - intros m Hm. unfold clearBasic. refine (pres_mfor _ _ _ _ m Hm). intros; apply vp_clear.
  - apply vp_clearAll.
  - apply vp_setGeometry.
  - vm.
  - now apply vp_at_set.
  - intros m Hm. unfold atPosition_set. destruct (getIndex m p) as [[|] ?]; auto. now apply vp_at_set.
  - apply pres_ignore, vp_move.
  - apply pres_ignore, vp_extend.
  - now apply pres_ignore, vp_addDataFrom.
  - vm.
  - vm.
  - vm.
  - vm.
  - vm.
Qed.

Lemma pres_mfor_In {S A} (P : S -> Prop) (l : list A) body :
  (forall a, In a l -> pres P (body a)) -> pres P (mfor l body).
Proof.
  intros H. induction l as [|a l IH]; cbn [mfor]; [apply pres_ret|].
  intros s Hs. pose proof (H a (or_introl eq_refl) s Hs) as K. destruct (body a s); auto. apply IH; auto. intros x Hx. apply H. now right.
Qed.

Lemma V_firstn n l : Forall V l -> Forall V (firstn n l).
Proof. intros H. revert n. induction H; intros [|n]; cbn; auto. Qed.

Lemma vp_add_array la : Forall V (a_data (snd la)) -> pres (vals V) (add_array la).
Proof.
  intros W m H. unfold add_array. apply post_lift; auto. intros d K. apply vp_add; auto. revert K. unfold array_to_matrix.
  destruct (a_dims _) as [|? [|? ?]]; try discriminate. destruct (String.eqb _ _); [intros Q; injection Q as <-; constructor|].
  destruct (_ <? _); [discriminate|]. intros Q; injection Q as <-. now apply V_firstn.
Qed.

Lemma vp_fromMessage g : Forall (fun a => Forall V (a_data a)) (g_data g) -> pres (vals V) (fromMessage g).
Proof.
  intros W. unfold fromMessage. apply pres_bind; [vm|intros _]. apply pres_bind; [vm|intros _].
  apply pres_bind; [apply vp_setGeometry|intros _]. apply pres_if; [apply pres_ret|].
  apply pres_bind; [|intros _; apply pres_bind; [vm|intros _]; apply pres_bind; [vm|intros _]; apply pres_ret].
  apply pres_mfor_In. intros [l a] H. apply vp_add_array. cbn [snd]. rewrite Forall_forall in W. apply W. now apply in_combine_r in H.
Qed.

Lemma vp_image_cell {C : Cv} im depth l i : (forall p v, In p (i_px im) -> px_cost (i_enc im) depth p = Some v -> V v) ->
  pres (vals V) (image_cell im depth l i).
Proof.
  intros W m H. unfold image_cell. destruct (_ && _); [|exact I]. destruct (nth_error _ _) as [p|] eqn:N; [|exact I].
  apply nth_error_In in N. destruct (px_cost _ _ _) eqn:K; [|exact H]. apply vp_at_set; eauto.
Qed.

Definition image_vals {C : Cv} (im : image) : Prop := forall depth p v, depth_of (i_enc im) = Some depth -> i_sound im = true ->
  In p (i_px im) -> px_cost (i_enc im) depth p = Some v -> V v.

Lemma vp_addLayerFromROSImage {C : Cv} im l : image_vals im -> pres (vals V) (addLayerFromROSImage im l).
Proof.
  intros W. unfold image_vals, addLayerFromROSImage in *. destruct (depth_of _) as [depth|]; [|apply pres_ret].
  destruct (i_sound im); cbn [negb]; [|apply pres_ret].
  apply pres_bind; [now apply vp_add_value|intros _]. apply pres_bind; [intros m H; exact H|intros m1].
  apply pres_if; [apply pres_ret|]. apply pres_bind; [apply pres_lift|intros vs].
  apply pres_bind; [apply pres_mfor; intros; apply vp_image_cell; intros p v; now apply W|intros _; apply pres_ret].
Qed.

Lemma vp_fromImageBundle {C : Cv} b : (forall bu f p, b = Some bu -> aget (b_files bu) f = Some p -> image_vals (file_image (Some p))) ->
  pres (vals V) (fromImageBundle b).
Proof.
  intros W. unfold fromImageBundle. destruct b as [b|]; [|apply pres_throw].
  destruct (y_frame (b_yaml b)), (y_cx (b_yaml b)), (y_cy (b_yaml b)), (y_resn (b_yaml b)), (y_nx (b_yaml b)), (y_ny (b_yaml b)); try apply pres_throw.
  apply pres_bind; [apply pres_lift|intros ls].
  apply pres_bind; [apply vp_setGeometry|intros _]. apply pres_bind; [vm|intros _]. apply pres_bind; [vm|intros _].
  apply pres_mfor. intros p. apply pres_bind; [|intros _; apply pres_ret]. apply vp_addLayerFromROSImage.
  destruct (aget _ _) eqn:G; [eapply W; eauto|]. intros ? ? ? _ _ [].
Qed.

Lemma vp_deflate k ls ld : pres (vals V) (deflate k ls ld).
Proof.
  intros m H. unfold deflate, get. destruct (aget (data m) ls) as [src|] eqn:G; [|exact H].
  apply post_bind; [now apply vp_add_value|exact H|]. intros _ m1 H1. apply pres_mfor; auto. intros j.
  apply pres_mfor. intros i m2 H2. destruct (mget src i j) as [c|] eqn:K; [|exact I]. apply vp_at_set; auto.
  destruct (_ <=? _); auto. eapply V_mget; [|eassumption]. exact (D_aget _ _ _ H G).
Qed.

Lemma V_combine a b : V a -> V b -> V (combine a b).
Proof. intros A B. unfold combine. destruct (_ && _); auto. destruct (Z.max_spec a b) as [[_ ->]|[_ ->]]; auto. Qed.

(** The cost table used by a run has its values in V. *)
Lemma vp_inflate (F : fenv) (P : pqueue) ls ld rad comp o : (forall q, V (comp q)) ->
  (forall i j, V (c_cost (if_cache o) i j)) -> pres (vals V) (inflate F P ls ld rad comp o).
Proof.
  intros W T m H. apply post_inflate; auto.
  - intros src G. unfold get in G. destruct (aget (data m) ls) as [d|] eqn:K; [|discriminate]. injection G as <-.
    apply vp_add; auto. eapply D_aget; eauto.
  - intros m1 c n s H1 TB. apply pres_enqueue. intros v m' H' (old & k & A & B & ->). apply vp_at_set; auto.
    apply V_combine; [now apply (vals_at m') in A|]. unfold lookup in B. destruct (_ && _); [|discriminate]. injection B as <-.
    unfold table_of in TB. destruct (cell_radius rad m1) as [r|e|f]; try discriminate. cbn in TB.
    destruct (r =? _); [injection TB as <-; apply T|]. unfold compute_caches in TB. destruct (_ <? _); [|discriminate]. injection TB as <-. apply W.
Qed.

(** ** Submaps *)

Lemma V_copy_region src dst b d : Forall V (mcoef src) -> Forall V (mcoef dst) -> copy_region src dst b = Ok d -> Forall V (mcoef d).
Proof.
  intros A B. unfold copy_region, mcopy. destruct (rstart b) as [i j]. destruct (rsize b) as [h w].
  destruct (rquad b); try (destruct (_ && _); [|discriminate]); cbn [of_opt]; intros Q; injection Q as <-; auto;
    apply V_mbuild; intros x y; destruct (in_block _ _ _ _ _ _); now apply V_cell.
Qed.

Lemma V_copy_regions src bs : Forall V (mcoef src) -> forall dst d, Forall V (mcoef dst) -> copy_regions src dst bs = Ok d -> Forall V (mcoef d).
Proof.
  intros A. induction bs as [|b t IH]; intros dst d B; cbn [copy_regions]; [intros Q; injection Q as <-; auto|].
  destruct (copy_region src dst b) eqn:K; try discriminate. cbn [rbind]. apply IH. now apply (V_copy_region src dst b).
Qed.

Lemma D_copy_layers bs src : D src -> forall dst r, D dst -> copy_layers src dst bs = Ok r -> D r.
Proof.
  intros A. induction A as [|[k d] t A A' IH]; intros dst r B; cbn [copy_layers]; [intros Q; injection Q as <-; auto|].
  match goal with |- context [copy_regions d ?x bs] => destruct (copy_regions d x bs) eqn:K; try discriminate; assert (Forall V (mcoef x)) as X end.
  - destruct (aget dst k) eqn:G; [eapply D_aget; eauto|constructor].
  - cbn [rbind]. apply IH. apply D_aput; auto. cbn [snd] in A. match type of K with copy_regions _ ?x _ = _ => now apply (V_copy_regions d bs A x) end.
Qed.

Lemma vals_new names : vals V (new_map names).
Proof.
  unfold vals, new_map. cbn. assert (D []) as H by constructor. revert H. generalize (@nil (string * mat)).
  induction names as [|n t IH]; intros d H; cbn; auto. apply IH. apply D_ainsert; auto. constructor.
Qed.

Lemma vals_getSubmap m q l b sub : vals V m -> getSubmap m q l = Ok (b, sub) -> vals V sub.
Proof.
  intros H. unfold getSubmap. destruct (submap_information _ _ _ _ _ _ _) as [i|]; [|intros Q; injection Q as _ <-; apply vals_new].
  match goal with |- context [setGeometry ?a ?b ?c ?s] => pose proof (vp_setGeometry a b c s) as G; destruct (setGeometry a b c s) as [u sub1|e sub1|f]; try discriminate end.
  cbn [post] in G. assert (vals V sub1) as G1 by (apply G; apply (vals_meta (new_map (layers m))); [reflexivity|apply vals_new]).
  destruct (buffer_regions _ _ _ _) as [bs|]; [|intros Q; injection Q as _ <-; apply vals_new].
  destruct (copy_layers _ _ _) eqn:K; cbn [rbind]; try discriminate. intros Q; injection Q as _ <-. exact (D_copy_layers _ _ H _ _ G1 K).
Qed.
End Core.
End Vals.

(** The registry of a submap. *)
Lemma copy_region_wf src dst b d : wf_mat src -> wf_mat dst -> copy_region src dst b = Ok d ->
  wf_mat d /\ mrows d = mrows dst /\ mcols d = mcols dst.
Proof.
  intros A B. unfold copy_region. destruct (rstart b) as [i j]. destruct (rsize b) as [h w].
  destruct (rquad b); try (intros Q; injection Q as <-; auto);
    match goal with |- of_opt _ ?x = _ -> _ => destruct x eqn:K end; cbn [of_opt]; try discriminate;
    intros Q; injection Q as <-; apply mcopy_spec in K; auto; tauto.
Qed.

Lemma copy_regions_wf src bs : wf_mat src -> forall dst d, wf_mat dst -> copy_regions src dst bs = Ok d ->
  wf_mat d /\ mrows d = mrows dst /\ mcols d = mcols dst.
Proof.
  intros A. induction bs as [|b t IH]; intros dst d B; cbn [copy_regions]; [intros Q; injection Q as <-; auto|].
  destruct (copy_region src dst b) eqn:K; try discriminate. cbn [rbind]. intros Q. apply copy_region_wf in K as (W & <- & <-); auto.
Qed.

Lemma copy_layers_reg bs n src : (forall k d, In (k, d) src -> wf_mat d) -> forall dst r,
  (forall k, In k (akeys src) -> amem dst k = true) ->
  (forall k d, aget dst k = Some d -> wf_mat d /\ mrows d = fst n /\ mcols d = snd n) ->
  copy_layers src dst bs = Ok r ->
  akeys r = akeys dst /\ (forall k d, aget r k = Some d -> wf_mat d /\ mrows d = fst n /\ mcols d = snd n).
Proof.
  induction src as [|[k d] t IH]; intros WS dst r KS WD; cbn [copy_layers]; [intros Q; injection Q as <-; auto|].
  assert (MK : amem dst k = true) by (apply KS; now left). unfold amem in MK. destruct (aget dst k) as [d0|] eqn:G; [|discriminate].
  destruct (copy_regions d d0 bs) as [d'| |] eqn:K; try discriminate. cbn [rbind].
  destruct (WD k d0 G) as (W & A & B). apply copy_regions_wf in K as (W' & A' & B'); auto; [|apply (WS k); now left].
  intros Q. assert (MK' : amem dst k = true) by (unfold amem; now rewrite G).
  assert (aput dst k d' = aset dst k d') as AP by (unfold aput; now rewrite MK'). rewrite AP in Q.
  destruct (IH) with (dst := aset dst k d') (r := r) as [I1 I2]; auto.
  - intros k' d1 H. apply (WS k'). now right.
  - intros k' H. apply amem_In. rewrite akeys_aset. apply amem_In. apply KS. now right.
  - intros k' d1 H. rewrite aget_aset in H. destruct (String.eqb k' k); [|eauto]. rewrite MK' in H. injection H as <-. repeat split; try apply W'; lia.
  - split; auto. rewrite I1. apply akeys_aset.
Qed.

Lemma In_aget {A} (d : list (string * A)) k x : NoDup (akeys d) -> In (k, x) d -> aget d k = Some x.
Proof.
  induction d as [|[k' y] d IH]; intros N H; [destruct H|]. cbn. inversion N; subst. destruct H as [H|H].
  - injection H as -> ->. now rewrite String.eqb_refl.
  - destruct (String.eqb_spec k k') as [->|]; auto. exfalso. match goal with K : ~ In _ _ |- _ => apply K end. apply (in_map fst) in H. exact H.
Qed.

Lemma setGeometry_layers {E : Env} l r p m u m' : setGeometry l r p m = Ret u m' -> layers m' = layers m.
Proof. unfold setGeometry. destruct (negb _); [discriminate|]. intros Q. injection Q as _ <-. reflexivity. Qed.

Lemma getSubmap_reg {E : Env} (RN : rnd_nonneg) m q l b sub : reg_ok' m -> getSubmap m q l = Ok (b, sub) -> reg_ok' sub.
Proof.
  intros H. assert (N : reg_ok' (new_map (layers m))) by (split; [apply new_map_reg; apply H|cbn; lia]).
  unfold getSubmap. destruct (submap_information _ _ _ _ _ _ _) as [i|]; [|intros Q; injection Q as _ <-; exact N].
  match goal with |- context [setGeometry ?a ?b ?c ?s] => pose proof (pres_setGeometry RN a b c s) as G; pose proof (setGeometry_layers a b c s) as GK; destruct (setGeometry a b c s) as [u sub1|e sub1|f]; try discriminate end.
  cbn [post] in G. assert (reg_ok' sub1) as G1 by (apply G; now apply (reg_meta (new_map (layers m)))).
  destruct (buffer_regions _ _ _ _) as [bs|]; [|intros Q; injection Q as _ <-; exact N].
  destruct (copy_layers _ _ _) as [r| |] eqn:K; cbn [rbind]; try discriminate. intros Q; injection Q as _ <-.
  destruct H as [H HS]. destruct G1 as [G1 GS]. specialize (GK _ _ eq_refl). cbn in GK.
  destruct (copy_layers_reg bs (size sub1) (data m)) with (dst := data sub1) (r := r) as [I1 I2].
  - intros k d Hd. apply In_aget in Hd; [|apply H]. apply (r_mat _ H _ _ Hd).
  - intros k Hk. apply amem_In, (r_same _ G1). rewrite GK. now apply (r_same _ H).
  - intros k d. apply (r_mat _ G1).
  - exact K.
  - split; [|exact GS]. constructor; cbn [layers data size set_data set_start]; try (intros l0); rewrite ?I1; try apply G1. apply I2.
Qed.
