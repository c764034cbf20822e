(** Property C97: image messages and files, byte by byte. *)
From Coq Require Import ZArith QArith String List Bool Lia.
From Coq Require Import ZifyBool.
From Verif Require Import Base BaseLemmas Mat GridMapMath GridIter CostMap Converter Bundles Spec ConvertSpec GeoLemmas CoreProofs CoreProofs2 IterProofs MessageProofs PropImage ImageBytes Samples.
Import ListNotations.
Open Scope Z_scope.

(** ** Specification *)

Definition is_byte (b : Z) : Prop := 0 <= b < 256.

(** Channels and bytes per sample of an encoding. *)
Definition shape_of (enc : string) : option (Z * Z) :=
  (if String.eqb enc "mono8" then Some (1, 1) else if String.eqb enc "bgr8" then Some (3, 1)
   else if String.eqb enc "bgra8" then Some (4, 1) else if String.eqb enc "mono16" then Some (1, 2)
   else if String.eqb enc "bgr16" then Some (3, 2) else if String.eqb enc "bgra16" then Some (4, 2) else None)%string.

(** Byte o of a message. *)
Definition nth_byte (r : ros_image) (o : Z) : Z := nth (Z.to_nat o) (ri_data r) 0.

(** Sample c of the pixel in row i and column j; 0 where there is none. *)
Definition number (r : ros_image) (nc bd : Z) (i : idx) (c : Z) : Z :=
  let o := fst i * ri_step r + (snd i * nc + c) * bd in
  if c <? nc then
    if bd =? 1 then nth_byte r o
    else if ri_big r then 256 * nth_byte r o + nth_byte r (o + 1) else nth_byte r o + 256 * nth_byte r (o + 1)
  else 0.

Definition numbers (r : ros_image) (nc bd : Z) (i : idx) : px :=
  Px (number r nc bd i 0) (number r nc bd i 1) (number r nc bd i 2) (number r nc bd i 3).

Section Bytes.
Context {E : Env} {C : Cv}.

Lemma shape_cases enc nc bd : shape_of enc = Some (nc, bd) ->
  In enc (eight_bit ++ sixteen_bit) /\ enc_channels enc = nc /\ enc_bytes enc = bd /\ depth_of enc = Some (if bd =? 1 then 256 else 65536) /\
  (nc = 1 \/ nc = 3 \/ nc = 4) /\ (bd = 1 \/ bd = 2) /\ (if smem enc eight_bit then 256 else 65536) = (if bd =? 1 then 256 else 65536).
Proof.
  unfold shape_of.
  repeat (match goal with |- (if String.eqb enc ?s then _ else _) = _ -> _ => destruct (String.eqb_spec enc s) as [->|_] end;
    [intros K; injection K as <- <-; cbn; repeat split; auto 10|]).
  discriminate.
Qed.

Lemma byte_ok r o : 0 <= o < Z.of_nat (length (ri_data r)) -> byte_at r o = Ok (nth_byte r o).
Proof.
  intros H. unfold byte_at, nth_byte. rewrite (nth_error_nth' _ 0) by lia. reflexivity.
Qed.

Lemma sample_ok r nc bd i j c : shape_of (ri_enc r) = Some (nc, bd) -> 0 <= ri_width r ->
  ri_width r * bd * nc <= ri_step r -> ri_height r * ri_step r = Z.of_nat (length (ri_data r)) ->
  0 <= i < ri_height r -> 0 <= j < ri_width r -> 0 <= c < nc ->
  sample_at r i j c = Ok (number r nc bd (i, j) c).
Proof.
  intros S W ST LN Hi Hj Hc. destruct (shape_cases _ _ _ S) as (_ & HC & HB & _ & NC & BD & _).
  unfold sample_at, number. rewrite HC, HB. cbn [fst snd].
  destruct (Z.ltb_spec c nc); [|lia]. set (o := i * ri_step r + (j * nc + c) * bd).
  assert (O : 0 <= o /\ o + bd <= Z.of_nat (length (ri_data r))).
  { assert ((j * nc + c) * bd + bd <= ri_step r) by nia. assert (0 <= (j * nc + c) * bd) by nia. unfold o. nia. }
  destruct BD as [->| ->]; cbn [Z.eqb Pos.eqb].
  - apply byte_ok. lia.
  - rewrite !byte_ok by lia. cbn [rbind]. f_equal. destruct (ri_big r); ring.
Qed.

Lemma px_at_ok r nc bd i j : shape_of (ri_enc r) = Some (nc, bd) -> 0 <= ri_width r ->
  ri_width r * bd * nc <= ri_step r -> ri_height r * ri_step r = Z.of_nat (length (ri_data r)) ->
  0 <= i < ri_height r -> 0 <= j < ri_width r ->
  px_at r i j = Ok (numbers r nc bd (i, j)).
Proof.
  intros S W ST LN Hi Hj. destruct (shape_cases _ _ _ S) as (_ & HC & HB & _ & NC & BD & _).
  unfold px_at, numbers. rewrite HC.
  assert (Z0 : forall c, nc <= c -> number r nc bd (i, j) c = 0).
  { intros c Hc. unfold number. destruct (Z.ltb_spec c nc); [lia|reflexivity]. }
  rewrite (sample_ok r nc bd) by (auto; lia). cbn [rbind].
  destruct NC as [->|[->| ->]]; cbn [Z.leb Z.compare Pos.compare Pos.compare_cont rbind].
  - now rewrite (Z0 1), (Z0 2), (Z0 3) by lia.
  - rewrite !(sample_ok r 3 bd) by (auto; lia). cbn [rbind]. now rewrite (Z0 3) by lia.
  - rewrite !(sample_ok r 4 bd) by (auto; lia). reflexivity.
Qed.

Lemma number_range r nc bd i c : Forall is_byte (ri_data r) -> bd = 1 \/ bd = 2 ->
  0 <= number r nc bd i c < (if bd =? 1 then 256 else 65536).
Proof.
  intros F BD. assert (B : forall o, is_byte (nth_byte r o)).
  { intros o. unfold nth_byte. destruct (nth_in_or_default (Z.to_nat o) (ri_data r) 0) as [I| ->].
    - rewrite Forall_forall in F. auto.
    - unfold is_byte. lia. }
  unfold number. set (o := _ + _). pose proof (B o). pose proof (B (o + 1)). unfold is_byte in *.
  destruct BD as [->| ->]; cbn [Z.eqb Pos.eqb]; destruct (c <? nc), (ri_big r); lia.
Qed.

Lemma decode_ok r nc bd : shape_of (ri_enc r) = Some (nc, bd) -> 0 <= ri_width r -> 0 <= ri_height r ->
  ri_width r * bd * nc <= ri_step r -> ri_height r * ri_step r = Z.of_nat (length (ri_data r)) -> Forall is_byte (ri_data r) ->
  exists ps, decode r = Ok (Image (ri_enc r) (ri_height r) (ri_width r) true ps) /\
    image_ok (Image (ri_enc r) (ri_height r) (ri_width r) true ps) /\
    forall i, in_range (ri_height r, ri_width r) i ->
      pixel (Image (ri_enc r) (ri_height r) (ri_width r) true ps) i (numbers r nc bd i).
Proof.
  intros S W H ST LN F. destruct (shape_cases _ _ _ S) as (_ & HC & HB & HD & NC & BD & SM).
  unfold decode. rewrite HD, HC, HB. replace (ri_step r <? ri_width r * bd * nc) with false by lia.
  rewrite LN, Z.eqb_refl. cbn [orb negb].
  assert (KR : forall k, 0 <= k < ri_height r * ri_width r -> 0 <= k / ri_width r < ri_height r /\ 0 <= k mod ri_width r < ri_width r).
  { intros k Hk. assert (0 < ri_width r) by nia. split; [split; [apply Z.div_pos; lia|apply Z.div_lt_upper_bound; nia]|apply Z.mod_pos_bound; lia]. }
  rewrite (rmap_ok _ (fun k => numbers r nc bd (k / ri_width r, k mod ri_width r))).
  2:{ intros k Hk. apply In_zseq in Hk. destruct (KR k Hk). apply px_at_ok; auto. }
  cbn [rbind]. eexists. split; [reflexivity|]. split.
  - split; cbn [i_px i_height i_width i_enc].
    + rewrite map_length, zseq_length. nia.
    + intros p Hp. apply in_map_iff in Hp as (k & <- & _). rewrite SM. unfold numbers, px_range. cbn [p_b p_g p_r p_a].
      repeat split; now apply number_range.
  - intros i [I0 I1]. cbn [fst snd] in I0, I1. unfold pixel. cbn [i_px i_width].
    rewrite nth_error_map', zseq_nth by nia. cbn [option_map]. f_equal. f_equal.
    destruct i as [i j]; cbn [fst snd] in *. f_equal; symmetry.
    + apply (Z.div_unique_pos _ _ _ j); lia.
    + apply (Z.mod_unique_pos _ _ i); lia.
Qed.
End Bytes.

(** ** Messages *)

(** A message of the size of the map whose bytes suffice: cell (i, j) gets the cost
    of the samples found at i * step + j * (bytes per pixel). Padding is skipped. *)
Theorem C97_loaded : forall (E : Env) (C : Cv) r l m nc bd, real_or_double E -> gray_range C ->
  in_range (size m) (start m) -> reg_ok' m -> shape_of (ri_enc r) = Some (nc, bd) -> (ri_height r, ri_width r) = size m ->
  ri_width r * bd * nc <= ri_step r -> ri_height r * ri_step r = Z.of_nat (length (ri_data r)) -> Forall is_byte (ri_data r) ->
  exists m', addLayerFromMessage r l m = Ret true m' /\ only_layer l m m' /\
    forall i, in_range (size m) i -> value_at m' l i (pixel_cost (ri_enc r) (numbers r nc bd i)).
Proof.
  intros E C r l m nc bd X GR G R S SZ ST LN F. destruct (shape_cases _ _ _ S) as (HE & _).
  assert (0 <= ri_width r /\ 0 <= ri_height r) as [W H].
  { destruct G as [G0 G1]. rewrite <- SZ in G0, G1. cbn [fst snd] in *. lia. }
  destruct (decode_ok r nc bd S W H ST LN F) as (ps & D & IM & PX).
  unfold addLayerFromMessage, bind, lift. rewrite D.
  destruct (C53_loaded E C (Image (ri_enc r) (ri_height r) (ri_width r) true ps) l m X GR G R HE eq_refl SZ IM) as (m' & A & O & _ & V). exists m'. split; [exact A|]. split; [exact O|].
  intros i Hi. apply V; auto. apply PX. now rewrite SZ.
Qed.
Print Assumptions C97_loaded.

(** Any other message changes nothing, unless only its size is wrong. *)
Theorem C97_rejected : forall (E : Env) (C : Cv) r l m,
  match shape_of (ri_enc r) with
  | None => True
  | Some (nc, bd) => ri_step r < ri_width r * bd * nc \/ ri_height r * ri_step r <> Z.of_nat (length (ri_data r))
  end -> addLayerFromMessage r l m = Ret false m.
Proof.
  intros E C r l m H. unfold addLayerFromMessage, bind, lift, decode.
  destruct (shape_of (ri_enc r)) as [[nc bd]|] eqn:S.
  - destruct (shape_cases _ _ _ S) as (HE & HC & HB & HD & _). rewrite HD, HC, HB.
    replace ((ri_step r <? ri_width r * bd * nc) || negb (ri_height r * ri_step r =? Z.of_nat (length (ri_data r)))) with true by lia.
    apply C53_rejected. auto.
  - assert (depth_of (ri_enc r) = None) as D.
    { unfold shape_of in S. unfold depth_of, BGRA8, BGR8, MONO8, BGRA16, BGR16, MONO16.
      repeat match goal with |- context [String.eqb (ri_enc r) ?s] => destruct (String.eqb (ri_enc r) s); [discriminate|] end. reflexivity. }
    rewrite D. unfold addLayerFromROSImage. cbn [i_enc]. rewrite D. reflexivity.
Qed.
Print Assumptions C97_rejected.

(** ** Files *)

(** A channel of a pixel, and a byte of a sample in memory. *)
Definition channel (p : px) (c : Z) : Z :=
  if c =? 0 then p_b p else if c =? 1 then p_g p else if c =? 2 then p_r p else p_a p.
Definition part {C : Cv} (bd v k : Z) : Z :=
  if bd =? 1 then v else if Bool.eqb (k =? 0) little then v mod 256 else v / 256.

(** Byte k of row i of a matrix with bd bytes per sample. *)
Definition row_byte {C : Cv} (a : cvmat) (bd i k : Z) : Z :=
  let w := v_channels a * bd in
  part bd (channel (nth (Z.to_nat (i * v_cols a + k / w)) (v_px a) (Px 0 0 0 0)) (k mod w / bd)) (k mod w mod bd).

(** The encoding chosen for a number of channels, and the bytes that are taken for
    the pixel in row i and column j. *)
Definition chosen (nc : Z) : string * Z :=
  if nc =? 3 then ("bgr8"%string, 3) else if nc =? 4 then ("bgra8"%string, 4) else ("mono8"%string, 1).
Definition taken {C : Cv} (a : cvmat) (bd : Z) (i : idx) : px :=
  let n := snd (chosen (v_channels a)) in
  let at_ c := if c <? n then row_byte a bd (fst i) (snd i * n + c) else 0 in
  Px (at_ 0) (at_ 1) (at_ 2) (at_ 3).

(** A matrix as OpenCV reads it. *)
Definition matrix_ok (a : cvmat) (bd : Z) : Prop :=
  (bd = 1 \/ bd = 2) /\ v_bits a = 8 * bd /\ 1 <= v_channels a <= 4 /\
  Z.of_nat (length (v_px a)) = v_rows a * v_cols a /\
  forall p, In p (v_px a) -> px_range (if bd =? 1 then 256 else 65536) p.

Lemma nth_flat_map {A B} (f : A -> list B) n (l : list A) : (0 < n)%nat -> (forall x, In x l -> length (f x) = n) ->
  forall k, nth_error (flat_map f l) k =
    match nth_error l (k / n) with Some x => nth_error (f x) (k mod n) | None => None end.
Proof.
  intros Hn. induction l as [|x l IH]; intros H k.
  - cbn [flat_map]. now destruct (k / n)%nat, k.
  - cbn [flat_map]. assert (L : length (f x) = n) by (apply H; now left).
    destruct (Nat.lt_ge_cases k n) as [K|K].
    + rewrite nth_error_app1 by lia. rewrite Nat.div_small, Nat.mod_small by lia. reflexivity.
    + rewrite nth_error_app2, L, IH by (try lia; intros; apply H; now right).
      replace (k / n)%nat with (S ((k - n) / n)).
      2:{ replace k with ((k - n) + 1 * n)%nat at 2 by lia. rewrite Nat.div_add by lia. lia. }
      replace (k mod n)%nat with ((k - n) mod n)%nat.
      2:{ replace k with ((k - n) + 1 * n)%nat at 2 by lia. rewrite Nat.mod_add by lia. reflexivity. }
      reflexivity.
Qed.

Section Files.
Context {E : Env} {C : Cv}.

Lemma px_bytes_length bits bd nc p : (bd = 1 \/ bd = 2) -> bits = 8 * bd -> 1 <= nc <= 4 ->
  length (px_bytes bits nc p) = Z.to_nat (nc * bd).
Proof.
  intros BD -> NC. assert (nc = 1 \/ nc = 2 \/ nc = 3 \/ nc = 4) as K by lia.
  destruct BD as [->| ->], K as [->|[->|[->| ->]]]; reflexivity.
Qed.

Lemma px_bytes_nth bits bd nc p k : (bd = 1 \/ bd = 2) -> bits = 8 * bd -> 1 <= nc <= 4 -> 0 <= k < nc * bd ->
  nth_error (px_bytes bits nc p) (Z.to_nat k) = Some (part bd (channel p (k / bd)) (k mod bd)).
Proof.
  intros BD -> NC HK. assert (nc = 1 \/ nc = 2 \/ nc = 3 \/ nc = 4) as K by lia.
  assert (L : k = 0 \/ k = 1 \/ k = 2 \/ k = 3 \/ k = 4 \/ k = 5 \/ k = 6 \/ k = 7) by nia.
  destruct BD as [->| ->]; unfold px_bytes, host_bytes.
  - destruct K as [->|[->|[->| ->]]], L as [->|[->|[->|[->|[->|[->|[->| ->]]]]]]]; try lia; reflexivity.
  - change (8 * 2 =? 16) with true. cbn iota.
    destruct K as [->|[->|[->| ->]]], L as [->|[->|[->|[->|[->|[->|[->| ->]]]]]]]; try lia;
      unfold part, bytes16; destruct little; reflexivity.
Qed.

Lemma part_byte bd v k : (bd = 1 \/ bd = 2) -> 0 <= v < (if bd =? 1 then 256 else 65536) -> is_byte (part bd v k).
Proof.
  intros BD V. unfold part, is_byte. destruct BD as [->| ->]; cbn [Z.eqb Pos.eqb] in *; [lia|].
  destruct (Bool.eqb _ _); [apply Z.mod_pos_bound; lia|].
  split; [apply Z.div_pos; lia|apply Z.div_lt_upper_bound; lia].
Qed.

Lemma channel_range d p c : px_range d p -> 0 <= channel p c < d.
Proof.
  intros (A & B & D & F). unfold channel. destruct (c =? 0), (c =? 1), (c =? 2); auto.
Qed.

Lemma file_data a bd : matrix_ok a bd ->
  Z.of_nat (length (ri_data (file_message (Some a)))) = v_rows a * (v_cols a * (v_channels a * bd)) /\
  Forall is_byte (ri_data (file_message (Some a))) /\
  forall i k, 0 <= i < v_rows a -> 0 <= k < v_cols a * (v_channels a * bd) ->
    nth_byte (file_message (Some a)) (i * (v_cols a * (v_channels a * bd)) + k) = row_byte a bd i k.
Proof.
  intros (BD & BI & NC & LN & PX). unfold file_message, toImageMsg, nth_byte. cbn [ri_data].
  set (w := v_channels a * bd). assert (W : 0 < w) by (unfold w; nia).
  assert (PL : forall p, length (px_bytes (v_bits a) (v_channels a) p) = Z.to_nat w) by (intros; now apply px_bytes_length).
  assert (FL : forall l, length (flat_map (px_bytes (v_bits a) (v_channels a)) l) = (length l * Z.to_nat w)%nat).
  { induction l as [|x l IH]; [reflexivity|]. cbn [flat_map length]. rewrite app_length, IH, PL. lia. }
  split; [rewrite FL; nia|]. split.
  - apply Forall_forall. intros b Hb. apply in_flat_map in Hb as (p & Hp & Hb).
    apply In_nth_error in Hb as [k Hk]. assert (KL : (k < Z.to_nat w)%nat) by (rewrite <- (PL p); apply nth_error_Some; congruence).
    replace k with (Z.to_nat (Z.of_nat k)) in Hk by lia.
    rewrite (px_bytes_nth _ bd) in Hk by (auto; unfold w in *; lia). injection Hk as <-.
    apply part_byte; auto. apply channel_range. auto.
  - intros i k Hi Hk. set (o := i * (v_cols a * w) + k).
    assert (Q : o / w = i * v_cols a + k / w).
    { unfold o. replace (i * (v_cols a * w) + k) with (k + (i * v_cols a) * w) by ring. rewrite Z.div_add by lia. ring. }
    assert (M : o mod w = k mod w).
    { unfold o. replace (i * (v_cols a * w) + k) with (k + (i * v_cols a) * w) by ring. now rewrite Z.mod_add by lia. }
    assert (KW : 0 <= k / w < v_cols a) by (split; [apply Z.div_pos; lia|apply Z.div_lt_upper_bound; nia]).
    assert (O : 0 <= o) by (unfold o; nia).
    assert (R : 0 <= i * v_cols a + k / w < Z.of_nat (length (v_px a))) by (rewrite LN; nia).
    assert (MB := Z.mod_pos_bound k w W).
    apply nth_error_nth.
    rewrite (nth_flat_map _ (Z.to_nat w)) by (auto; lia).
    rewrite <- Z2Nat.inj_div, <- Z2Nat.inj_mod, Q, M by lia.
    rewrite (nth_error_nth' (v_px a) (Px 0 0 0 0)) by lia.
    rewrite (px_bytes_nth _ bd) by (auto; unfold w in *; lia). reflexivity.
Qed.
End Files.

(** A file of the size of the map: the bits per channel are not looked at, and the
    cell in column j gets the cost of bytes number n * j onwards of its row, n
    being the number of channels. *)
Theorem C97_file : forall (E : Env) (C : Cv) a bd l m, real_or_double E -> gray_range C ->
  in_range (size m) (start m) -> reg_ok' m -> matrix_ok a bd -> (v_rows a, v_cols a) = size m ->
  exists m', add_matrix (Some a) l m = Ret tt m' /\ only_layer l m m' /\
    forall i, in_range (size m) i -> value_at m' l i (pixel_cost (fst (chosen (v_channels a))) (taken a bd i)).
Proof.
  intros E C a bd l m X GR G R OK SZ. destruct (file_data a bd OK) as (DL & DB & DN).
  destruct OK as (BD & BI & NC & LN & PX).
  set (r := file_message (Some a)) in *. set (n := snd (chosen (v_channels a))).
  assert (0 < v_rows a /\ 0 < v_cols a) as [RP CP].
  { destruct G as [G0 G1]. rewrite <- SZ in G0, G1. cbn [fst snd] in *. lia. }
  assert (S : shape_of (ri_enc r) = Some (n, 1)).
  { unfold r, n, file_message, toImageMsg, chosen. cbn [ri_enc]. destruct (v_channels a =? 3), (v_channels a =? 4); reflexivity. }
  assert (N : 1 <= n <= v_channels a).
  { unfold n, chosen. destruct (Z.eqb_spec (v_channels a) 3); [cbn; lia|]. destruct (Z.eqb_spec (v_channels a) 4); cbn; lia. }
  assert (ST : ri_step r = v_cols a * (v_channels a * bd)).
  { unfold r, file_message, toImageMsg. cbn [ri_step]. rewrite BI. rewrite (Z.mul_comm 8), Z.div_mul by lia. reflexivity. }
  assert (RH : ri_height r = v_rows a) by reflexivity. assert (RW : ri_width r = v_cols a) by reflexivity.
  destruct (C97_loaded E C r l m n 1 X GR G R S) as (m' & A & O & V).
  - now rewrite RH, RW.
  - rewrite RW, ST. nia.
  - rewrite RH, ST. symmetry. exact DL.
  - exact DB.
  - exists m'. split; [unfold add_matrix, bind; fold r; now rewrite A|]. split; [exact O|]. intros i Hi.
    assert (EN : ri_enc r = fst (chosen (v_channels a))).
    { unfold r, file_message, toImageMsg, chosen. cbn [ri_enc]. now destruct (v_channels a =? 3), (v_channels a =? 4). }
    rewrite <- EN. replace (taken a bd i) with (numbers r n 1 i); [now apply V|].
    destruct Hi as [I0 I1]. rewrite <- SZ in I0, I1. cbn [fst snd] in I0, I1.
    assert (K : forall c, 0 <= c -> number r n 1 i c = if c <? n then row_byte a bd (fst i) (snd i * n + c) else 0).
    { intros c Hc. unfold number. destruct (Z.ltb_spec c n); [|reflexivity]. cbn [Z.eqb Pos.eqb].
      rewrite ST, Z.mul_1_r. apply DN; nia. }
    unfold numbers, taken. fold n. now rewrite !K by lia.
Qed.
Print Assumptions C97_file.

(** With 8 bits per channel that is the pixel itself (Bundles.file_image). *)
Theorem C97_eight : forall (E : Env) (C : Cv) a l m, real_or_double E -> gray_range C ->
  in_range (size m) (start m) -> reg_ok' m -> matrix_ok a 1 -> (v_rows a, v_cols a) = size m -> v_channels a <> 2 ->
  exists m', add_matrix (Some a) l m = Ret tt m' /\ only_layer l m m' /\
    forall i p, in_range (size m) i -> nth_error (v_px a) (Z.to_nat (fst i * v_cols a + snd i)) = Some p ->
      value_at m' l i (pixel_cost (fst (chosen (v_channels a))) p).
Proof.
  intros E C a l m X GR G R OK SZ N2. destruct (C97_file E C a 1 l m X GR G R OK SZ) as (m' & A & O & V).
  exists m'. split; [exact A|]. split; [exact O|]. intros i p Hi Hp.
  destruct OK as (_ & _ & NC & LN & _). specialize (V i Hi).
  assert (T : forall n c, v_channels a = n -> 0 <= c < n -> row_byte a 1 (fst i) (snd i * n + c) = channel p c).
  { intros n c K Hc. unfold row_byte, part. rewrite K. cbn [Z.eqb Pos.eqb]. rewrite !Z.mul_1_r, Z.div_1_r.
    replace ((snd i * n + c) / n) with (snd i) by (apply (Z.div_unique_pos _ _ _ c); lia).
    replace ((snd i * n + c) mod n) with c by (apply (Z.mod_unique_pos _ _ (snd i)); lia).
    now rewrite (nth_error_nth _ _ _ Hp). }
  assert (v_channels a = 1 \/ v_channels a = 3 \/ v_channels a = 4) as K by lia.
  replace (pixel_cost (fst (chosen (v_channels a))) p) with (pixel_cost (fst (chosen (v_channels a))) (taken a 1 i)); [exact V|].
  unfold taken. destruct K as [K|[K|K]].
  - pose proof (T _ 0 K). rewrite K in *. cbn [chosen Z.eqb Pos.eqb fst snd] in *.
    unfold pixel_cost. cbn [String.eqb Ascii.eqb Bool.eqb p_b]. change (0 <? 1) with true. cbn iota. now rewrite H by lia.
  - pose proof (T _ 0 K). pose proof (T _ 1 K). pose proof (T _ 2 K). rewrite K in *. cbn [chosen Z.eqb Pos.eqb fst snd] in *.
    unfold pixel_cost. cbn [String.eqb Ascii.eqb Bool.eqb p_b p_g p_r].
    change (0 <? 3) with true. change (1 <? 3) with true. change (2 <? 3) with true. cbn iota. now rewrite H, H0, H1 by lia.
  - pose proof (T _ 0 K). pose proof (T _ 1 K). pose proof (T _ 2 K). pose proof (T _ 3 K). rewrite K in *. cbn [chosen Z.eqb Pos.eqb fst snd] in *.
    unfold pixel_cost. cbn [String.eqb Ascii.eqb Bool.eqb p_b p_g p_r p_a].
    change (0 <? 4) with true. change (1 <? 4) with true. change (2 <? 4) with true. change (3 <? 4) with true. cbn iota.
    now rewrite H, H0, H1, H2 by lia.
Qed.
Print Assumptions C97_eight.

(** With 16 bits and one channel, on a little-endian host: the columns 2 k and
    2 k + 1 show the low and the high byte of column k, so that the right half of
    the image is not used. *)
Theorem C97_sixteen : forall (E : Env) (C : Cv) a l m, real_or_double E -> gray_range C -> little = true ->
  in_range (size m) (start m) -> reg_ok' m -> matrix_ok a 2 -> (v_rows a, v_cols a) = size m -> v_channels a = 1 ->
  exists m', add_matrix (Some a) l m = Ret tt m' /\ only_layer l m m' /\
    forall i p, in_range (size m) i -> nth_error (v_px a) (Z.to_nat (fst i * v_cols a + snd i / 2)) = Some p ->
      value_at m' l i (darkness 256 (if Z.even (snd i) then p_b p mod 256 else p_b p / 256)).
Proof.
  intros E C a l m X GR LE G R OK SZ N1. destruct (C97_file E C a 2 l m X GR G R OK SZ) as (m' & A & O & V).
  exists m'. split; [exact A|]. split; [exact O|]. intros i p Hi Hp. specialize (V i Hi).
  replace (darkness 256 (if Z.even (snd i) then p_b p mod 256 else p_b p / 256)) with (pixel_cost (fst (chosen (v_channels a))) (taken a 2 i)); [exact V|].
  unfold taken, row_byte. rewrite N1. cbn [chosen Z.eqb Pos.eqb fst snd]. unfold pixel_cost. cbn [String.eqb Ascii.eqb Bool.eqb p_b].
  change (0 <? 1) with true. cbn iota. f_equal. rewrite Z.mul_1_r, Z.add_0_r, !Z.mul_1_l. rewrite (nth_error_nth _ _ _ Hp).
  rewrite (Z.div_small (snd i mod 2)) by (apply Z.mod_pos_bound; lia). rewrite Z.mod_mod by lia.
  unfold channel, part. cbn [Z.eqb Pos.eqb]. rewrite LE, Zeven_mod. unfold Zeq_bool.
  now destruct (Z.eqb_spec (snd i mod 2) 0) as [->|], (Z.compare_spec (snd i mod 2) 0); try lia.
Qed.
Print Assumptions C97_sixteen.

(** With 16 bits and an alpha channel, on a little-endian host: the even column 2 k
    is left unknown when the green of column k is below half, whatever its alpha. *)
Theorem C97_sixteen_alpha : forall (E : Env) (C : Cv) a l m, real_or_double E -> gray_range C -> little = true ->
  in_range (size m) (start m) -> reg_ok' m -> matrix_ok a 2 -> (v_rows a, v_cols a) = size m -> v_channels a = 4 ->
  exists m', add_matrix (Some a) l m = Ret tt m' /\ only_layer l m m' /\
    forall i p, in_range (size m) i -> nth_error (v_px a) (Z.to_nat (fst i * v_cols a + snd i / 2)) = Some p ->
      (if Z.even (snd i) then p_g p else p_a p) < 32768 -> value_at m' l i unknown.
Proof.
  intros E C a l m X GR LE G R OK SZ N4. destruct (C97_file E C a 2 l m X GR G R OK SZ) as (m' & A & O & V).
  exists m'. split; [exact A|]. split; [exact O|]. intros i p Hi Hp H. specialize (V i Hi).
  assert (TA : p_a (taken a 2 i) < 128).
  { unfold taken, row_byte. rewrite N4. cbn [chosen Z.eqb Pos.eqb fst snd p_a]. change (3 <? 4) with true. cbn iota.
    assert (EO : snd i = 2 * (snd i / 2) + snd i mod 2) by (apply Z.div_mod; lia).
    pose proof (Z.mod_pos_bound (snd i) 2 ltac:(lia)) as MB.
    replace ((snd i * 4 + 3) / (4 * 2)) with (snd i / 2) by (apply (Z.div_unique_pos _ _ _ (4 * (snd i mod 2) + 3)); lia).
    replace ((snd i * 4 + 3) mod (4 * 2)) with (4 * (snd i mod 2) + 3) by (apply (Z.mod_unique_pos _ _ (snd i / 2)); lia).
    rewrite (nth_error_nth _ _ _ Hp). rewrite Zeven_mod in H. unfold part. cbn [Z.eqb Pos.eqb]. rewrite LE.
    assert (snd i mod 2 = 0 \/ snd i mod 2 = 1) as [Q|Q] by lia; rewrite Q in *; cbn [Zeq_bool Z.compare] in H.
    - change (channel p ((4 * 0 + 3) / 2)) with (p_g p). change (Bool.eqb ((4 * 0 + 3) mod 2 =? 0) true) with false. cbn iota.
      apply Z.div_lt_upper_bound; lia.
    - change (channel p ((4 * 1 + 3) / 2)) with (p_a p). change (Bool.eqb ((4 * 1 + 3) mod 2 =? 0) true) with false. cbn iota.
      apply Z.div_lt_upper_bound; lia. }
  rewrite N4 in V. cbn [chosen Z.eqb Pos.eqb fst] in V. unfold pixel_cost in V. cbn [String.eqb Ascii.eqb Bool.eqb] in V.
  replace (p_a (taken a 2 i) <? 128) with true in V by lia. exact V.
Qed.
Print Assumptions C97_sixteen_alpha.

(** Row 1 of a layer read from a message with padded rows, a message that is one byte
    short, a 16-bit file of nearly uniform brightness (1004 to 1007 of 65536 in
    that row), an 8-bit file, and an opaque 16-bit file with alpha channel. *)
Example C97_case :
  let C := opencv true in
  let load (f : M cmap bool) := match f sample with Ret b m => (b, map (fun j => at_ m "c" (1, j)) (zseq 4)) | _ => (false, []) end in
  let file (a : cvmat) := match add_matrix (E := binary64 BWrap) (C := C) (Some a) "c" sample with Ret _ m => map (fun j => at_ m "c" (1, j)) (zseq 4) | _ => [] end in
  load (addLayerFromMessage (E := binary64 BWrap) (C := C) (RosImage "mono8" 5 4 false 6 (map (fun k => 8 * k) (zseq 30))) "c") =
    (true, [Ok 206; Ok 198; Ok 190; Ok 182]) /\
  addLayerFromMessage (E := binary64 BWrap) (C := C) (RosImage "mono8" 5 4 false 6 (zseq 29)) "c" sample = Ret false sample /\
  file (CvMat 16 1 5 4 (map (fun k => Px (1000 + k) 0 0 0) (zseq 20))) = [Ok 19; Ok 251; Ok 18; Ok 251] /\
  file (CvMat 8 1 5 4 (map (fun k => Px (10 * k) 0 0 0) (zseq 20))) = [Ok 214; Ok 204; Ok 194; Ok 184] /\
  file (CvMat 16 4 5 4 (map (fun k => Px 40000 (20000 + 2000 * k) 40000 65535) (zseq 20))) = [Ok 255; Ok 80; Ok 255; Ok 80].
Proof. conj_vm. Qed.

(** These files satisfy the hypothesis of the theorems. *)
Example C97_case_ok : matrix_ok (CvMat 16 1 5 4 (map (fun k => Px (1000 + k) 0 0 0) (zseq 20))) 2.
Proof.
  split; [auto|]. split; [reflexivity|]. split; [cbn; lia|]. split; [reflexivity|].
  intros p Hp. cbn [v_px] in Hp. apply in_map_iff in Hp as (k & <- & Hk). apply In_zseq in Hk. unfold px_range. cbn [p_b p_g p_r p_a Z.eqb Pos.eqb]. lia.
Qed.
