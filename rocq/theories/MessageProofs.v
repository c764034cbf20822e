(** Proofs for toMessage and fromMessage. *)
From Coq Require Import ZArith QArith Qround Qabs Qreduction Qfield String List Bool Lia Lqa.
From Coq Require Import ZifyBool.
From Verif Require Import Base Mat GridMapMath GridIter CostMap Converter BaseLemmas Spec ConvertSpec GeoLemmas CoreProofs CoreProofs2 CoreFinal.
Import ListNotations.
Open Scope Z_scope.

Section Messages.
Context {E : Env}.

Definition cells_of (l : vec) (r : Q) : idx := (Qround_away (fdiv (fst l) r), Qround_away (fdiv (snd l) r)).

(** setGeometry with any rounding. *)
Lemma setGeometry_any l r p m : (0 < fst l)%Q -> (0 < snd l)%Q -> (0 < r)%Q ->
  let n := cells_of l r in
  setGeometry l r p m = Ret tt (CMap (frame m) (stamp m)
    (map (fun kv => (fst kv, mconst (fst n) (snd n) NO_INFORMATION)) (data m)) (layers m) (basic m)
    (fmul (inject_Z (fst n)) r, fmul (inject_Z (snd n)) r) r p n (0, 0)).
Proof.
  intros A B C n. unfold setGeometry.
  rewrite (proj2 (Qlt_bool_iff 0 (fst l))), (proj2 (Qlt_bool_iff 0 (snd l))), (proj2 (Qlt_bool_iff 0 r)) by auto.
  cbn [andb negb]. fold (cells_of l r). fold n. unfold bind, resize, clearAll, modify, set_geo, set_size, set_data.
  cbn [frame stamp data layers basic len resn pos size start]. rewrite map_map. cbn [fst snd mrows mcols mconst]. reflexivity.
Qed.

Lemma cells_of_nonneg (RN : rnd_nonneg) l r : (0 < fst l)%Q -> (0 < snd l)%Q -> (0 < r)%Q ->
  0 <= fst (cells_of l r) /\ 0 <= snd (cells_of l r).
Proof.
  intros A B C. cbn. split; apply Qround_away_nonneg, RN; apply Qle_shift_div_l; auto; lra.
Qed.

(** ** Arrays *)

Definition array_mat (n : idx) (a : marray) : mat :=
  Mat (fst n) (snd n) (firstn (Z.to_nat (fst n * snd n)) (a_data a)).

Lemma fits_matrix n a : fits n a -> array_to_matrix a = Ok (array_mat n a).
Proof.
  intros (c & r & more & D & [(NR & Hr & Hc & L)|(RM & N)]); unfold array_to_matrix; rewrite D.
  - destruct (String.eqb_spec (fst c) row_index); [contradiction|]. rewrite Hr, Hc.
    destruct (Z.ltb_spec (Z.of_nat (length (a_data a))) (fst n * snd n)); [lia|]. reflexivity.
  - rewrite RM, String.eqb_refl, N. reflexivity.
Qed.

Lemma wf_array n a : 0 <= fst n -> 0 <= snd n -> fits n a -> wf_mat (array_mat n a).
Proof.
  intros A B (c & r & more & D & [(NR & Hr & Hc & L)|(RM & N)]); unfold wf_mat, array_mat; cbn [mrows mcols mcoef].
  - repeat split; auto. rewrite firstn_length. lia.
  - subst n. cbn. lia.
Qed.

Lemma nth_firstn {A} (l : list A) : forall n k, (k < n)%nat -> nth_error (firstn n l) k = nth_error l k.
Proof. induction l as [|x t IH]; intros [|n] [|k] H; cbn; auto; try lia. apply IH. lia. Qed.

Lemma array_mat_at n a i v : in_range n i -> fits n a ->
  (mget (array_mat n a) (fst i) (snd i) = Some v <-> array_at n a i v).
Proof.
  intros [A B] F. unfold mget. rewrite (proj2 (in_mat_iff (array_mat n a) (fst i) (snd i))) by (cbn; lia).
  unfold array_at. cbn [mrows mcoef array_mat]. 
  assert (Z.to_nat (fst i + snd i * fst n) < Z.to_nat (fst n * snd n))%nat by nia.
  rewrite nth_firstn by assumption. tauto.
Qed.

Lemma unfit n a m l : 0 <= fst n -> 0 <= snd n -> size m = n -> ~ fits n a -> exists f, add_array (l, a) m = Flt f.
Proof.
  intros N0 N1 Sz U. unfold add_array, bind. cbn [snd fst]. destruct (array_to_matrix a) as [d|e|f] eqn:K.
  - cbn [lift]. unfold add. rewrite Sz.
    destruct ((fst n =? mrows d) && (snd n =? mcols d)) eqn:Q; [|cbn; eauto]. exfalso. apply U.
    unfold array_to_matrix in K. destruct (a_dims a) as [|c [|r more]] eqn:D; try discriminate.
    apply andb_true_iff in Q as [Q1 Q2]. apply Z.eqb_eq in Q1, Q2.
    exists c, r, more. split; auto. destruct (String.eqb_spec (fst c) row_index) as [e|e].
    + injection K as <-. right. split; auto. destruct n; cbn in *; congruence.
    + left. split; auto. destruct (Z.ltb_spec (Z.of_nat (length (a_data a))) (snd r * snd c)); [discriminate|].
      injection K as <-. cbn in Q1, Q2. rewrite Q1, Q2. repeat split; auto.
  - unfold array_to_matrix in K. destruct (a_dims a) as [|c [|r more]]; try discriminate.
    destruct (String.eqb _ _); [discriminate|]. destruct (_ <? _); discriminate.
  - cbn. eauto.
Qed.

Lemma fits_dec n a : fits n a \/ ~ fits n a.
Proof.
  destruct (a_dims a) as [|c [|r more]] eqn:D.
  - right. intros (? & ? & ? & K & _). congruence.
  - right. intros (? & ? & ? & K & _). congruence.
  - destruct (String.eqb_spec (fst c) "row_index") as [e|e].
    + destruct (idx_eqb n (0, 0)) eqn:K.
      * left. exists c, r, more. split; auto. right. split; auto. unfold idx_eqb in K. destruct n; cbn in *. f_equal; lia.
      * right. intros (c' & r' & more' & D' & H). rewrite D in D'. injection D' as <- <- <-. destruct H as [(H & _)|(_ & H)]; [tauto|].
        subst n. discriminate.
    + destruct ((snd r =? fst n) && (snd c =? snd n) && (fst n * snd n <=? Z.of_nat (length (a_data a)))) eqn:K.
      * left. exists c, r, more. split; auto. left. split; auto. lia.
      * right. intros (c' & r' & more' & D' & H). rewrite D in D'. injection D' as <- <- <-. destruct H as [(H & H1 & H2 & H3)|(H & _)]; [|tauto].
        lia.
Qed.

(** ** The loop over the layers of a message *)

Lemma appended_In names : forall ls l, In l (appended ls names) <-> In l ls \/ In l names.
Proof.
  induction names as [|k t IH]; intros ls l; cbn [appended In]; [tauto|]. rewrite IH.
  destruct (smem k ls) eqn:K.
  - apply smem_In in K. intuition (subst; auto).
  - rewrite in_app_iff. cbn [In]. intuition auto.
Qed.

Lemma add_arrays n : 0 <= fst n -> 0 <= snd n -> forall las m, size m = n -> reg_ok' m ->
  (forall l a, In (l, a) las -> fits n a) ->
  exists m', mfor las add_array m = Ret tt m' /\ reg_ok' m' /\ same_meta m m' /\
    layers m' = appended (layers m) (map fst las) /\
    forall l, aget (data m') l = match last_with l las with Some a => Some (array_mat n a) | None => aget (data m) l end.
Proof.
  intros N0 N1. induction las as [|[k a] t IH]; intros m Sz R F.
  - exists m. split; [reflexivity|]. split; auto. split; [repeat split; auto|]. split; auto.
  - assert (Fa : fits n a) by (apply (F k); left; auto).
    assert (D : add_array (k, a) m = add k (array_mat n a) m).
    { unfold add_array, bind. cbn [snd fst]. rewrite (fits_matrix n a Fa). reflexivity. }
    destruct (add_ok k (array_mat n a) m) as (m1 & H1 & G1 & O1 & M1 & L1 & X1); [now rewrite Sz|now rewrite Sz|].
    assert (R1 : reg_ok' m1). { pose proof (pres_add' k (array_mat n a) (wf_array n a N0 N1 Fa) m R) as P. now rewrite H1 in P. }
    destruct (IH m1) as (m2 & H2 & R2 & M2 & L2 & D2); auto.
    { rewrite <- Sz. symmetry. apply M1. } { intros l b Hb. apply (F l). right; auto. }
    exists m2. cbn [mfor]. rewrite D, H1. split; auto. split; auto. split; [eapply MoveProofs.same_meta_trans; eauto|].
    split.
    + rewrite L2, L1. cbn [map fst appended]. f_equal.
      assert (exists_layer m k = smem k (layers m)) as ->; auto.
      destruct (smem k (layers m)) eqn:S.
      * apply smem_In in S. now apply (akeys_has _ _ (proj1 R)).
      * apply smem_false in S. destruct (exists_layer m k) eqn:W; auto. exfalso. apply S. now apply (akeys_has _ _ (proj1 R)).
    + intros l. rewrite D2. cbn [last_with]. destruct (last_with l t); auto.
      destruct (String.eqb_spec l k) as [->|NE].
      * now apply get_has in G1.
      * specialize (O1 l NE). unfold get in O1. destruct (aget (data m1) l), (aget (data m) l); congruence.
Qed.

Lemma add_arrays_bad n : 0 <= fst n -> 0 <= snd n -> forall las m, size m = n -> reg_ok' m ->
  (exists l a, In (l, a) las /\ ~ fits n a) -> exists f, mfor las add_array m = Flt f.
Proof.
  intros N0 N1. induction las as [|[k a] t IH]; intros m Sz R (l & b & I & U); [destruct I|].
  cbn [mfor]. destruct (fits_dec n a) as [Fa|Ua].
  - assert (D : add_array (k, a) m = add k (array_mat n a) m).
    { unfold add_array, bind. cbn [snd fst]. rewrite (fits_matrix n a Fa). reflexivity. }
    destruct (add_ok k (array_mat n a) m) as (m1 & H1 & G1 & O1 & M1 & L1 & X1); [now rewrite Sz|now rewrite Sz|].
    assert (R1 : reg_ok' m1). { pose proof (pres_add' k (array_mat n a) (wf_array n a N0 N1 Fa) m R) as P. now rewrite H1 in P. }
    rewrite D, H1. apply IH; auto.
    + rewrite <- Sz. symmetry. apply M1.
    + exists l, b. split; auto. destruct I as [I|I]; auto. injection I as -> ->. contradiction.
  - destruct (unfit n a m k N0 N1 Sz Ua) as [f ->]. eauto.
Qed.

(** ** fromMessage *)

(** What is set before the layers are looked at. *)
Definition blank (g : msg) (m : cmap) : cmap :=
  let n := cells_of (g_length g) (g_resn g) in
  CMap (g_frame g) (to_nsec (g_stamp g)) (map (fun kv => (fst kv, mconst (fst n) (snd n) NO_INFORMATION)) (data m))
       (layers m) (basic m) (fmul (inject_Z (fst n)) (g_resn g), fmul (inject_Z (snd n)) (g_resn g)) (g_resn g) (g_position g) n (0, 0).

Lemma blank_reg (RN : rnd_nonneg) g m : positive g -> reg_ok' m -> reg_ok' (blank g m).
Proof.
  intros (A & B & C) R. pose proof (pres_setGeometry RN (g_length g) (g_resn g) (g_position g) m R) as P.
  rewrite (setGeometry_any _ _ _ m A B C) in P. cbn in P. eapply reg_meta; [| | |exact P]; reflexivity.
Qed.

Lemma fromMessage_unfold g m : positive g ->
  fromMessage g m =
  if negb (Nat.eqb (length (g_layers g)) (length (g_data g))) then Ret false (blank g m)
  else match mfor (combine (g_layers g) (g_data g)) add_array (blank g m) with
       | Ret _ s => Ret true (set_start (set_basic s (g_basic g)) (g_index g))
       | Exn e s => Exn e s
       | Flt f => Flt f
       end.
Proof.
  intros (A & B & C). unfold fromMessage, bind at 1, setTimestamp, modify at 1. unfold bind at 1, setFrameId, modify at 1.
  unfold bind at 1. rewrite (setGeometry_any _ _ _ _ A B C). cbn [set_frame set_stamp frame stamp data layers basic len resn pos size start].
  fold (blank g m). destruct (negb _); [reflexivity|].
  unfold bind at 1. change (mfor (combine (g_layers g) (g_data g)) add_array) with (mfor (combine (g_layers g) (g_data g)) add_array).
  destruct (mfor _ _ _); reflexivity.
Qed.

Lemma fromMessage_bad g m : ~ positive g -> fromMessage g m = Flt AssertFailed.
Proof.
  intros H. unfold fromMessage, bind at 1, setTimestamp, modify at 1. unfold bind at 1, setFrameId, modify at 1.
  unfold bind at 1. now rewrite setGeometry_assert.
Qed.

Lemma aget_blank g m l : aget (data (blank g m)) l =
  option_map (fun _ => mconst (fst (size (blank g m))) (snd (size (blank g m))) NO_INFORMATION) (aget (data m) l).
Proof. unfold blank. cbn [data size]. apply (aget_map (fun _ => mconst _ _ NO_INFORMATION)). Qed.

(** ** toMessage *)

Lemma rmap_ok {A B} (f : A -> res B) (h : A -> B) l : (forall x, In x l -> f x = Ok (h x)) -> rmap f l = Ok (map h l).
Proof.
  induction l as [|x t IH]; intros H; cbn [rmap map]; auto. rewrite H by (left; auto). cbn [rbind].
  rewrite IH by (intros; apply H; right; auto). reflexivity.
Qed.

Definition matrix_of (m : cmap) (l : string) : mat := match aget (data m) l with Some d => d | None => Mat 0 0 [] end.

Lemma toMessage_ok m : reg_ok m -> stamp_ok m ->
  toMessage m = Ok (Msg (stamp m / 1000000000, stamp m mod 1000000000) (frame m) (resn m) (len m) (pos m) (layers m) (basic m)
    (map (fun l => matrix_to_array (matrix_of m l)) (layers m)) (fst (start m) mod 65536, snd (start m) mod 65536)).
Proof.
  intros R [S0 S1]. unfold toMessage, from_nsec.
  assert (stamp m / 1000000000 < 4294967296) by (apply Z.div_lt_upper_bound; lia).
  destruct (Z.ltb_spec (stamp m / 1000000000) 4294967296); [|lia]. cbn [rbind].
  rewrite (rmap_ok _ (fun l => matrix_to_array (matrix_of m l))); [reflexivity|].
  intros l Hl. apply (r_same _ R), BaseLemmas.aget_In in Hl as [d Hd]. unfold get, matrix_of. now rewrite Hd.
Qed.

Lemma last_with_map (f : string -> marray) ls l : NoDup ls ->
  last_with l (combine ls (map f ls)) = if smem l ls then Some (f l) else None.
Proof.
  induction ls as [|k t IH]; intros ND; cbn [combine map last_with smem existsb]; auto.
  inversion ND as [|? ? NI ND']; subst. rewrite IH by auto. destruct (smem l t) eqn:S.
  - fold (smem l t). rewrite S, orb_true_r. reflexivity.
  - fold (smem l t). rewrite S, orb_false_r. destruct (String.eqb_spec l k); subst; auto.
Qed.

Lemma appended_nil names : NoDup names -> forall ls, (forall x, In x names -> ~ In x ls) -> appended ls names = ls ++ names.
Proof.
  induction names as [|k t IH]; intros ND ls D; cbn [appended]; [now rewrite app_nil_r|].
  inversion ND; subst. destruct (smem k ls) eqn:S. { apply smem_In in S. exfalso. apply (D k); auto. left; auto. }
  rewrite IH; auto.
  - now rewrite <- app_assoc.
  - intros x Hx. rewrite in_app_iff. cbn [In]. intros [K|[K|[]]]; [apply (D x); auto; right; auto|subst; contradiction].
Qed.

Lemma map_fst_combine {A B} (a : list A) (b : list B) : length a = length b -> map fst (combine a b) = a.
Proof. revert b. induction a as [|x t IH]; intros [|y u] H; cbn in *; try discriminate; auto. f_equal. apply IH. lia. Qed.

Lemma combine_map {A B} (f : A -> B) l x y : In (x, y) (combine l (map f l)) -> In x l /\ y = f x.
Proof. induction l as [|a t IH]; cbn; [tauto|]. intros [H|H]; [injection H as <- <-; auto|]. apply IH in H. tauto. Qed.

Lemma matrix_array_fits m d : wf_mat d -> mrows d = fst (size m) -> mcols d = snd (size m) -> fits (size m) (matrix_to_array d).
Proof.
  intros (W0 & W1 & W2) A B. exists (column_index, mcols d), (row_index, mrows d), []. split; [reflexivity|]. left. cbn.
  split; [discriminate|]. rewrite W2, A, B. repeat split; lia.
Qed.

Lemma matrix_array_mat m d : wf_mat d -> mrows d = fst (size m) -> mcols d = snd (size m) -> array_mat (size m) (matrix_to_array d) = d.
Proof.
  intros (W0 & W1 & W2) A B. unfold array_mat. cbn [a_data matrix_to_array]. rewrite <- A, <- B, <- W2, Nat2Z.id, firstn_all.
  destruct d; reflexivity.
Qed.

(** The round trip when setGeometry recomputes the same cell counts. *)
Lemma message_round (RN : rnd_nonneg) m : reg_ok' m -> stamp_ok m ->
  (0 < fst (len m))%Q -> (0 < snd (len m))%Q -> (0 < resn m)%Q -> cells_of (len m) (resn m) = size m ->
  exists g m', toMessage m = Ok g /\ fromMessage g (new_map []) = Ret true m' /\
    layers m' = layers m /\ (forall l, aget (data m') l = aget (data m) l) /\
    basic m' = basic m /\ frame m' = frame m /\ stamp m' = stamp m /\
    len m' = (fmul (inject_Z (fst (size m))) (resn m), fmul (inject_Z (snd (size m))) (resn m)) /\
    resn m' = resn m /\ pos m' = pos m /\ size m' = size m /\ start m' = (fst (start m) mod 65536, snd (start m) mod 65536).
Proof.
  intros R SO L0 L1 RP CO. pose proof (toMessage_ok m (proj1 R) SO) as T.
  set (g := Msg _ _ _ _ _ _ _ _ _) in *. exists g. rewrite T. clear T. assert (PG : positive g) by (repeat split; auto).
  assert (R0 : reg_ok' (blank g (new_map []))). { apply blank_reg; auto. split; [apply new_map_reg; constructor|cbn; lia]. }
  assert (Sz : size (blank g (new_map [])) = size m) by (cbn; exact CO).
  destruct R as [R [N0 N1]].
  destruct (add_arrays (size m) N0 N1 (combine (g_layers g) (g_data g)) _ Sz R0) as (m' & H & R' & M' & L' & D').
  { intros l a Ha. apply combine_map in Ha as [Hl ->]. apply (r_same _ R), BaseLemmas.aget_In in Hl as [d Hd].
    unfold matrix_of. rewrite Hd. destruct (r_mat _ R _ _ Hd) as (W & A & B). now apply matrix_array_fits. }
  exists (set_start (set_basic m' (g_basic g)) (g_index g)). split; [reflexivity|]. split.
  { rewrite fromMessage_unfold by auto. assert (Nat.eqb (length (g_layers g)) (length (g_data g)) = true) as ->.
    { apply Nat.eqb_eq. unfold g. cbn [g_layers g_data]. now rewrite map_length. }
    cbn [negb]. rewrite H. reflexivity. }
  cbn [set_start set_basic frame stamp data layers basic len resn pos size start].
  destruct M' as (F1 & F2 & F3 & F4 & F5 & F6 & F7 & F8).
  split.
  { rewrite L', map_fst_combine by (unfold g; cbn [g_layers g_data]; now rewrite map_length).
    unfold g. cbn [g_layers]. rewrite appended_nil; [reflexivity|apply R|]. intros x _. cbn. auto. }
  split.
  { intros l. rewrite D'. unfold g. cbn [g_layers g_data]. rewrite (last_with_map (fun l => matrix_to_array (matrix_of m l))) by apply R.
    destruct (smem l (layers m)) eqn:S.
    - apply smem_In in S. apply (r_same _ R), BaseLemmas.aget_In in S as [d Hd]. unfold matrix_of. rewrite Hd.
      destruct (r_mat _ R _ _ Hd) as (W & A & B). now rewrite matrix_array_mat.
    - cbn [data blank new_map map aget]. apply smem_false in S. symmetry. apply BaseLemmas.aget_None. now rewrite <- (r_same _ R). }
  split; [reflexivity|]. split; [rewrite <- F1; reflexivity|].
  split. { rewrite <- F2. cbn. unfold to_nsec. cbn [fst snd]. rewrite (Z.div_mod (stamp m) 1000000000) at 3 by lia. ring. }
  split. { rewrite <- F4. cbn [len blank]. unfold g. cbn [g_length g_resn]. now rewrite CO. }
  split; [now rewrite <- F5|]. split; [now rewrite <- F6|]. split; [now rewrite <- F7|]. reflexivity.
Qed.

End Messages.
