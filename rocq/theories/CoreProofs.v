(** Proofs for the layer operations, geometry and validity of CostMap. *)
From Coq Require Import ZArith QArith Qround Qabs Qreduction Qfield String List Bool Lia Lqa.
From Coq Require Import ZifyBool.
From Verif Require Import Base Mat GridMapMath GridIter CostMap History BaseLemmas Spec GeoLemmas.
Import ListNotations.
Open Scope Z_scope.

(** The final state satisfies [P], also after an exception. *)
Definition post {S A} (P : S -> Prop) (o : out S A) : Prop :=
  match o with Ret _ s' => P s' | Exn _ s' => P s' | Flt _ => True end.

(** [f] preserves [P], also when it raises an exception. *)
Definition pres {S A} (P : S -> Prop) (f : M S A) : Prop := forall s, P s -> post P (f s).

Lemma post_bind {S A B} (P : S -> Prop) (m : M S A) (f : A -> M S B) s :
  pres P m -> P s -> (forall a s', P s' -> post P (f a s')) -> post P (bind m f s).
Proof.
  intros Hm Hs Hf. unfold bind. specialize (Hm s Hs). destruct (m s); auto.
Qed.

Lemma pres_ret {S A} (P : S -> Prop) (a : A) : pres P (ret a).
Proof. intros s H; exact H. Qed.
Lemma pres_throw {S A} (P : S -> Prop) e : pres P (@throw S A e).
Proof. intros s H; exact H. Qed.
Lemma pres_abort {S A} (P : S -> Prop) f : pres P (@abort S A f).
Proof. intros s H; exact I. Qed.
Lemma pres_lift {S A} (P : S -> Prop) (r : res A) : pres P (@lift S A r).
Proof. intros s H; destruct r; unfold post; simpl; auto. Qed.
Lemma pres_bind {S A B} (P : S -> Prop) (m : M S A) (f : A -> M S B) :
  pres P m -> (forall a, pres P (f a)) -> pres P (bind m f).
Proof.
  intros Hm Hf s Hs. unfold bind. specialize (Hm s Hs). destruct (m s); auto. now apply Hf.
Qed.
Lemma pres_mfor {S A} (P : S -> Prop) (l : list A) body :
  (forall a, pres P (body a)) -> pres P (mfor l body).
Proof.
  intros H. induction l as [|a l IH]; simpl; [apply pres_ret|].
  intros s Hs. specialize (H a s Hs). destruct (body a s); auto; now apply IH.
Qed.
Lemma pres_if {S A} (P : S -> Prop) (b : bool) (f g : M S A) : pres P f -> pres P g -> pres P (if b then f else g).
Proof. destruct b; auto. Qed.
Lemma pres_modify (P : cmap -> Prop) f : (forall s, P s -> P (f s)) -> pres P (modify f).
Proof. intros H s Hs; simpl; auto. Qed.

(* ------------------------------------------------------------------ *)
(** ** Registry invariant *)

Lemma NoDup_snoc {A} (l : list A) x : NoDup l -> ~ In x l -> NoDup (l ++ [x]).
Proof.
  intros H K. induction l as [|a l IH]; simpl.
  - repeat constructor; auto.
  - inversion H; subst. constructor.
    + rewrite in_app_iff. simpl. simpl in K. intuition auto.
    + apply IH; auto. simpl in K; tauto.
Qed.

Lemma fold_ainsert_keys (names : list string) (d : list (string * mat)) x :
  let r := fold_left (fun d l => ainsert d l x) names d in
  (forall l, In l (akeys r) <-> In l (akeys d) \/ In l names) /\
  (NoDup (akeys d) -> NoDup (akeys r)) /\
  (forall l v, aget r l = Some v -> aget d l = Some v \/ v = x) /\
  (forall l v, aget d l = Some v -> aget r l = Some v).
Proof.
  revert d; induction names as [|n names IH]; intros d; simpl.
  - repeat split; auto; tauto.
  - destruct (IH (ainsert d n x)) as (K & N & G & G2).
    assert (forall l, In l (akeys (ainsert d n x)) <-> In l (akeys d) \/ l = n) as Hk.
    { intros l. rewrite akeys_ainsert. destruct (amem d n) eqn:Hm.
      - apply amem_In in Hm. split; auto. intros [ ? | -> ]; auto.
      - rewrite in_app_iff. simpl. intuition auto. }
    split; [|split; [|split]].
    + intros l. rewrite K, Hk. intuition auto.
    + intros ND. apply N. rewrite akeys_ainsert. destruct (amem d n) eqn:Hm; auto.
      apply NoDup_snoc; auto. rewrite <- amem_In. congruence.
    + intros l v Hv. destruct (G l v Hv) as [H|H]; auto.
      rewrite aget_ainsert in H. destruct (String.eqb_spec l n); auto. subst.
      destruct (amem d n); auto. right. congruence.
    + intros l v Hv. apply G2. rewrite aget_ainsert. destruct (String.eqb_spec l n); auto. subst.
      unfold amem. now rewrite Hv.
Qed.

Lemma new_map_reg names : NoDup names -> reg_ok (new_map names).
Proof.
  intros ND. destruct (fold_ainsert_keys names [] (Mat 0 0 [])) as (K & N & G & _).
  constructor; simpl; auto.
  - apply N. constructor.
  - intros l. rewrite K. simpl. tauto.
  - intros l d H. destruct (G l d H) as [H'|H']; [discriminate|]. subst. 
    unfold wf_mat; simpl. repeat split; lia.
Qed.

(** Replacing a layer by a matrix of the same size. *)
Lemma reg_aset m l d : reg_ok m -> wf_mat d -> mrows d = fst (size m) -> mcols d = snd (size m) ->
  reg_ok (set_data m (aset (data m) l d)).
Proof.
  intros [A B C D] W H1 H2. constructor; simpl; auto.
  - now rewrite akeys_aset.
  - intros l'. now rewrite akeys_aset.
  - intros l' d' H. rewrite aget_aset in H. destruct (String.eqb l' l).
    + destruct (amem (data m) l); [|discriminate]. injection H as <-. auto.
    + apply D in H. auto.
Qed.

Lemma pres_add l d : wf_mat d -> pres reg_ok (add l d).
Proof.
  intros W m R. unfold add, exists_layer.
  destruct ((fst (size m) =? mrows d) && (snd (size m) =? mcols d)) eqn:H; simpl; auto.
  destruct (amem (data m) l) eqn:Hl.
  - apply reg_aset; auto; lia.
  - assert (~ In l (akeys (data m))) as Hn by (rewrite <- amem_In; congruence).
    destruct R as [A B C D]. constructor; simpl; auto.
    + apply NoDup_snoc; auto. rewrite C; auto.
    + rewrite akeys_ainsert, Hl. now apply NoDup_snoc.
    + intros l'. rewrite akeys_ainsert, Hl, !in_app_iff, C. tauto.
    + intros l' d' H'. rewrite aget_ainsert, Hl in H'. destruct (String.eqb l' l).
      * injection H' as <-. repeat split; try apply W; lia.
      * apply D in H'; auto.
Qed.

Lemma pres_reg_size m : reg_ok m -> (exists l d, aget (data m) l = Some d) -> 0 <= fst (size m) /\ 0 <= snd (size m).
Proof. intros R (l & d & H). destruct (r_mat _ R _ _ H) as ((? & ? & _) & <- & <-). auto. Qed.

(** Sizes are non-negative: needed by add(layer, value), which builds a
    constant matrix of the map's size. *)
Definition reg_ok' (m : cmap) : Prop := reg_ok m /\ 0 <= fst (size m) /\ 0 <= snd (size m).

Lemma pres_add' l d : wf_mat d -> pres reg_ok' (add l d).
Proof.
  intros W m [R S]. pose proof (pres_add l d W m R) as H. revert H. unfold add.
  destruct (negb _); auto. destruct (exists_layer m l); intros H; split; auto.
Qed.

Lemma pres_add_value l v : pres reg_ok' (add_value l v).
Proof.
  intros m H. unfold add_value. apply pres_add'; auto. apply wf_mconst; apply H.
Qed.

Lemma pres_erase l : pres reg_ok' (erase l).
Proof.
  intros m [R S]. unfold erase. destruct (amem (data m) l) eqn:H; simpl; [|split; auto].
  apply amem_In in H. destruct R as [A B C D].
  assert (smem l (layers m) = true) as Hs by (apply smem_In; now apply C).
  rewrite Hs. simpl. split; auto. constructor; simpl.
  - now apply remove_first_NoDup.
  - rewrite akeys_adel. now apply remove_first_NoDup.
  - intros l'. rewrite akeys_adel, !remove_first_In, C by auto. tauto.
  - intros l' d' Hd. rewrite aget_adel in Hd by auto.
    destruct (String.eqb l' l); [discriminate|]. now apply D in Hd.
Qed.

Lemma pres_clear l : pres reg_ok' (clear l).
Proof.
  intros m [R S]. unfold clear. destruct (aget (data m) l) as [d|] eqn:H; [|split; auto].
  split; auto. destruct (r_mat _ R _ _ H) as ((? & ? & ?) & ? & ?).
  apply reg_aset; auto. now apply wf_mconst.
Qed.

Lemma pres_clearAll : pres reg_ok' clearAll.
Proof.
  apply pres_modify. intros m [R S]. split; auto. destruct R as [A B C D].
  constructor; simpl; auto.
  - now rewrite akeys_map with (f := fun kv => mconst (mrows (snd kv)) (mcols (snd kv)) NO_INFORMATION).
  - intros l. now rewrite akeys_map with (f := fun kv => mconst (mrows (snd kv)) (mcols (snd kv)) NO_INFORMATION).
  - intros l d. rewrite (aget_map (fun x => mconst (mrows x) (mcols x) NO_INFORMATION)).
    destruct (aget (data m) l) as [x|] eqn:H; [|discriminate]. intros K; injection K as <-.
    destruct (D _ _ H) as ((? & ? & ?) & ? & ?). repeat split; simpl; auto.
    rewrite repeat_length. nia.
Qed.

Lemma pres_at_set l i v : pres reg_ok' (at_set l i v).
Proof.
  intros m [R S]. unfold at_set. destruct (aget (data m) l) as [d|] eqn:H; [|split; auto].
  destruct (mset d (fst i) (snd i) v) as [d'|] eqn:K; [|exact I].
  destruct (r_mat _ R _ _ H) as (W & H1 & H2). apply mset_spec in K; auto.
  destruct K as (_ & W' & R1 & R2 & _). split; auto. apply reg_aset; auto; congruence.
Qed.

Lemma pres_clear_block i j h w l : pres reg_ok' (clear_block i j h w l).
Proof.
  intros m [R S]. unfold clear_block. destruct (aget (data m) l) as [d|] eqn:H; [|split; auto].
  destruct (mfill d i j h w NO_INFORMATION) as [d'|] eqn:K; [|exact I].
  destruct (r_mat _ R _ _ H) as (W & H1 & H2). apply mfill_spec in K; auto.
  destruct K as (W' & R1 & R2 & _). split; auto. apply reg_aset; auto; congruence.
Qed.

(** The registry invariant only looks at layers, data and size. *)
Lemma reg_meta m m' : layers m' = layers m -> data m' = data m -> size m' = size m ->
  reg_ok' m -> reg_ok' m'.
Proof.
  intros H1 H2 H3 [[A B C D] S]. split; [|now rewrite H3].
  constructor; rewrite ?H1, ?H2; auto. intros l d H. rewrite H3. eapply D; eassumption.
Qed.

Ltac regm := match goal with H : reg_ok' ?m |- _ => apply (reg_meta m); auto end.

Lemma Qround_away_nonneg q : (0 <= q)%Q -> 0 <= Qround_away q.
Proof.
  intros H. unfold Qround_away. rewrite (proj2 (Qle_bool_iff 0 q)) by auto.
  pose proof (Qlt_floor (q + (1#2))) as K. assert (0 < Qfloor (q + (1#2)) + 1); [|lia].
  rewrite Zlt_Qlt. change (inject_Z 0) with 0%Q. lra.
Qed.

Section Ops.
Context {E : Env}.

Definition rnd_nonneg : Prop := forall q, (0 <= q)%Q -> (0 <= rnd q)%Q.

Lemma pres_resize n : 0 <= fst n -> 0 <= snd n -> pres reg_ok' (resize n).
Proof.
  intros H1 H2. apply pres_modify. intros m [[A B C D] S]. split; auto. constructor; simpl; auto.
  - now rewrite akeys_map with (f := fun kv => mconst (fst n) (snd n) 0).
  - intros l. now rewrite akeys_map with (f := fun kv => mconst (fst n) (snd n) 0).
  - intros l d. rewrite (aget_map (fun x => mconst (fst n) (snd n) 0)).
    destruct (aget (data m) l) as [x|] eqn:H; [|discriminate]. intros K; injection K as <-.
    repeat split; simpl; auto. rewrite repeat_length. nia.
Qed.

Lemma pres_setGeometry (RN : rnd_nonneg) l r p : pres reg_ok' (setGeometry l r p).
Proof.
  unfold setGeometry. destruct (negb _) eqn:H; [apply pres_abort|].
  apply negb_false_iff in H. rewrite !andb_true_iff, !Qlt_bool_iff in H. destruct H as [[H1 H2] H3].
  assert (forall x, (0 < x)%Q -> 0 <= Qround_away (fdiv x r)) as K.
  { intros x Hx. apply Qround_away_nonneg. apply RN. apply Qle_shift_div_l; auto. lra. }
  apply pres_bind; [apply pres_resize; simpl; auto|intros _].
  apply pres_bind; [apply pres_clearAll|intros _].
  apply pres_modify. intros m Hm. regm.
Qed.

Lemma pres_clearRows i n : pres reg_ok' (clearRows i n).
Proof. intros m Hm. unfold clearRows. refine (pres_mfor _ _ _ _ m Hm). intros; apply pres_clear_block. Qed.
Lemma pres_clearCols i n : pres reg_ok' (clearCols i n).
Proof. intros m Hm. unfold clearCols. refine (pres_mfor _ _ _ _ m Hm). intros; apply pres_clear_block. Qed.

Lemma pres_move_axis b k : pres reg_ok' (move_axis b k).
Proof.
  intros m Hm. unfold move_axis.
  destruct (k =? 0); auto.
  destruct (_ <=? Z.abs k).
  { apply post_bind; auto using pres_clearAll. }
  assert (forall i n, pres reg_ok' ((if b then clearRows else clearCols) i n)) as C
    by (destruct b; intros; [apply pres_clearRows|apply pres_clearCols]).
  destruct (_ <=? _).
  - apply post_bind; auto.
  - apply post_bind; auto. intros _ s Hs. apply post_bind; auto.
Qed.

Lemma pres_move p : pres reg_ok' (move p).
Proof.
  intros m Hm. unfold move.
  apply post_bind; auto using pres_move_axis. intros r0 s Hs.
  apply post_bind; auto using pres_move_axis. intros r1 s' Hs'.
  destruct (match bpol with BWrap => _ | BClamp => _ end); simpl; auto. regm.
Qed.

Lemma pres_copy_from old i : pres reg_ok' (copy_from old i).
Proof.
  intros m Hm. unfold copy_from. apply post_bind; auto using pres_lift. intros [|] s Hs; [exact Hs|]. revert s Hs. change (pres reg_ok' (match getPosition m i with None => abort Uninit | Some p => if negb (isInside old p) then ret tt else mfor (layers m) (fun l => bind (lift (at_ old l (snd (getIndex old p)))) (fun w => at_set l i w)) end)).
  destruct (getPosition m i); [|apply pres_abort]. apply pres_if; [apply pres_ret|].
  apply pres_mfor. intros l. apply pres_bind; [apply pres_lift|]. intros; apply pres_at_set.
Qed.

Lemma pres_extend (RN : rnd_nonneg) o : pres reg_ok' (extendToInclude o).
Proof.
  intros m Hm. unfold extendToInclude.
  destruct (extend_axis _ _ _ _) as [[cx Lx] bx]. destruct (extend_axis (snd (pos m)) _ _ _) as [[cy Ly] by_].
  destruct (negb _); auto.
  apply post_bind; auto using pres_setGeometry. intros _ s Hs. apply post_bind; auto. 
  { apply pres_modify; intros; regm. }
  intros _ s1 Hs1. apply post_bind; auto.
  intros s2 Hs2. apply post_bind; auto using pres_lift. intros. apply pres_mfor; auto.
  intros; apply pres_copy_from.
Qed.

Lemma pres_add_missing l : pres reg_ok' (add_missing l).
Proof.
  intros m Hm. unfold add_missing. destruct (smem l (layers m)); auto. now apply pres_add_value.
Qed.

Lemma pres_merge_cell o w ls i : pres reg_ok' (merge_cell o w ls i).
Proof.
  intros m Hm. unfold merge_cell. apply post_bind; auto using pres_lift. intros v s Hs. revert s Hs.
  match goal with |- forall s, _ -> post _ (?f s) => change (pres reg_ok' f) end.
  apply pres_if; [apply pres_ret|].
  destruct (getPosition m i); [|apply pres_abort]. apply pres_if; [apply pres_ret|].
  apply pres_mfor. intros l. apply pres_bind; [apply pres_lift|]. intros ok.
  apply pres_if; [apply pres_ret|]. apply pres_bind; [apply pres_lift|]. intros; apply pres_at_set.
Qed.

Lemma pres_addDataFrom (RN : rnd_nonneg) o e w c ls : pres reg_ok' (addDataFrom o e w c ls).
Proof.
  unfold addDataFrom. apply pres_bind.
  { destruct e; [now apply pres_extend|apply pres_ret]. }
  intros _. apply pres_bind; [apply pres_mfor; intros; apply pres_add_missing|]. intros _.
  apply pres_bind; [|intros; apply pres_ret].
  intros s Hs. apply post_bind; auto using pres_lift. intros. apply pres_mfor; auto.
  intros; apply pres_merge_cell.
Qed.

Lemma pres_ignore {S A} (P : S -> Prop) (f : M S A) : pres P f -> pres P (ignore f).
Proof. intros H. apply pres_bind; auto. intros; apply pres_ret. Qed.

Lemma pres_run_op (RN : rnd_nonneg) o : op_ok o -> pres reg_ok' (run_op o).
Proof.
  intros H. destruct o; simpl in *.
  - now apply pres_add'.
  - apply pres_add_value.
  - apply pres_ignore, pres_erase.
  - apply pres_clear.
  - intros m Hm. unfold clearBasic. refine (pres_mfor _ _ _ _ m Hm). intros; apply pres_clear.
  - apply pres_clearAll.
  - now apply pres_setGeometry.
  - apply pres_modify. intros; regm.
  - apply pres_at_set.
  - intros m Hm. unfold atPosition_set. destruct (getIndex m p) as [[|] ?]; auto. now apply pres_at_set.
  - apply pres_ignore, pres_move.
  - now apply pres_ignore, pres_extend.
  - now apply pres_ignore, pres_addDataFrom.
  - apply pres_modify. intros; regm.
  - apply pres_modify. intros; regm.
  - apply pres_modify. intros; regm.
  - apply pres_modify. intros; regm.
  - apply pres_modify. intros; regm.
Qed.

Lemma reach_reg (RN : rnd_nonneg) names m : NoDup names -> reach (new_map names) m -> reg_ok' m.
Proof.
  intros ND H. induction H as [|o m1 m2 _ IH Ho Hs].
  - split; [now apply new_map_reg|]. simpl; lia.
  - pose proof (pres_run_op RN o Ho m1 IH) as K. destruct Hs as [Hs|[e Hs]]; now rewrite Hs in K.
Qed.

End Ops.
