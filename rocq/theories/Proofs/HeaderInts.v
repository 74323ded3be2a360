(** The integer expressions of src/btc_validation/header_step.rs. *)
From Coq Require Import ZArith Znumtheory Bool String List Lia ZifyBool ZifyNat.
From Verif.Model Require Import Base Sha256 CS Bellpepper Util Poly Bignat Ints Median Difficulty HeaderStep.
From Verif.Spec Require Import Spec SpecHeader.
From Verif.Proofs Require Import Field Arith Convert Limbs HashP.
Import ListNotations.
Local Open Scope Z_scope.

(** ** Bytes and bits *)
Definition byte_bits (x : Z) : list bool := map (fun i => Z.testbit x (Z.of_nat (7 - i))) (seq 0 8).

Lemma word_bits_bytes w : word_bits w = flat_map byte_bits (word_bytes w).
Proof.
  assert (H : forall k m, 0 <= k -> 0 <= m < 8 -> Z.testbit (w / 256 ^ k mod 256) m = Z.testbit w (8 * k + m)).
  { intros k m Hk Hm. change 256 with (2 ^ 8) at 2. rewrite Z.mod_pow2_bits_low by lia.
    change 256 with (2 ^ 8). rewrite <- Z.pow_mul_r by lia. rewrite Z.div_pow2_bits by lia. f_equal. lia. }
  unfold word_bytes, byte_bits. cbn [seq map flat_map app]. unfold word_bits. cbn [seq map].
  rewrite !H by lia. reflexivity.
Qed.
Lemma words_bits_bytes ws : words_bits ws = flat_map byte_bits (header_bytes ws).
Proof.
  induction ws as [|w ws IH]; auto. cbn [words_bits header_bytes flat_map]. fold (words_bits ws). fold (header_bytes ws).
  now rewrite word_bits_bytes, IH, flat_map_app.
Qed.

Lemma bits_sum x : forall n, Z.of_nat n < 64 -> 
  fold_right (fun i acc => (if Z.testbit x (Z.of_nat i) then 2 ^ Z.of_nat i else 0) + acc) 0 (rev (seq 0 n)) = x mod 2 ^ Z.of_nat n.
Proof.
  induction n as [|n IH]; intros Hn; [cbn; now rewrite Z.mod_1_r|].
  rewrite seq_S, rev_app_distr. cbn [rev app fold_right Nat.add]. rewrite IH by lia.
  replace (Z.of_nat (S n)) with (Z.of_nat n + 1) by lia. rewrite Z.pow_add_r by lia. change (2 ^ 1) with 2.
  rewrite Z.rem_mul_r by lia. rewrite Z.testbit_odd, Z.shiftr_div_pow2 by lia.
  pose proof (Zmod_odd (x / 2 ^ Z.of_nat n)) as HO. destruct (Z.odd _); rewrite HO; lia.
Qed.

Lemma bit_weight_8 k i : bit_weight (8 * k + i) = 256 ^ Z.of_nat k * bit_weight i.
Proof.
  unfold bit_weight. change 256 with (2 ^ 8). rewrite <- Z.pow_mul_r, <- Z.pow_add_r by lia. f_equal.
  replace (8 * k + i)%nat with (i + k * 8)%nat by lia. rewrite Nat.div_add, Nat.mod_add by lia.
  pose proof (Nat.mod_upper_bound i 8). lia.
Qed.
Lemma digest_sum_8 k : forall bs i, digest_sum (8 * k + i) bs = 256 ^ Z.of_nat k * digest_sum i bs.
Proof.
  induction bs as [|b bs IH]; intros i; cbn [digest_sum]; [lia|].
  replace (S (8 * k + i)) with (8 * k + S i)%nat by lia. rewrite IH. destruct b; [rewrite bit_weight_8|]; ring.
Qed.
Lemma digest_sum_app : forall a b i, digest_sum i (a ++ b) = digest_sum i a + digest_sum (i + List.length a) b.
Proof.
  induction a as [|x a IH]; intros b i; cbn [app digest_sum List.length].
  - now rewrite Nat.add_0_r.
  - rewrite IH. replace (S i + List.length a)%nat with (i + S (List.length a))%nat by lia. ring.
Qed.
Lemma digest_byte x : digest_sum 0 (byte_bits x) = x mod 256.
Proof.
  pose proof (bits_sum x 8 ltac:(lia)) as H. change (2 ^ Z.of_nat 8) with 256 in H. rewrite <- H. reflexivity.
Qed.
Lemma digest_bytes : forall bytes, Forall (fun b => 0 <= b < 256) bytes -> digest_int (flat_map byte_bits bytes) = le_int bytes.
Proof.
  induction bytes as [|b bytes IH]; intros HF; [reflexivity|]. inversion HF as [|? ? Hb HF']; subst.
  unfold digest_int, le_int in *. cbn [flat_map value_of]. rewrite digest_sum_app, digest_byte, Z.mod_small by auto.
  change (0 + List.length (byte_bits b))%nat with (8 * 1 + 0)%nat. rewrite digest_sum_8, IH by auto. change (256 ^ Z.of_nat 1) with 256. ring.
Qed.
Lemma word_bytes_range w : Forall (fun b => 0 <= b < 256) (word_bytes w).
Proof.
  unfold word_bytes. apply Forall_forall. intros x Hx. apply in_map_iff in Hx. destruct Hx as (i & <- & _). apply Z.mod_pos_bound. lia.
Qed.
Lemma header_bytes_range ws : Forall (fun b => 0 <= b < 256) (header_bytes ws).
Proof. induction ws as [|w ws IH]; cbn [header_bytes flat_map]; [constructor|]. apply Forall_app. split; [apply word_bytes_range|exact IH]. Qed.
Lemma slice_Forall {A} (P : A -> Prop) i n l : Forall P l -> Forall P (slice i n l).
Proof.
  intros H. unfold slice. apply Forall_forall. intros x Hx. rewrite Forall_forall in H. apply H.
  assert (K : In x (skipn i l)) by (rewrite <- (firstn_skipn n (skipn i l)); apply in_or_app; now left).
  rewrite <- (firstn_skipn i l). apply in_or_app. now right.
Qed.

(** ** Fields of the header *)
Lemma ten (h : list Z) : header_ok h -> exists a b c d e f g i j k, h = [a; b; c; d; e; f; g; i; j; k] /\ Forall (fun w => 0 <= w < 2 ^ 64) h.
Proof.
  intros [HL HF]. do 10 (destruct h as [|? h]; [discriminate HL|]). destruct h; [|discriminate HL].
  repeat eexists. exact HF.
Qed.

Lemma shifted_bytes a b : 0 <= a < 2 ^ 64 -> 0 <= b < 2 ^ 64 ->
  word_bytes (a mod 2 ^ 32 * 2 ^ 32 + b / 2 ^ 32) = skipn 4 (word_bytes a) ++ firstn 4 (word_bytes b).
Proof.
  intros Ha Hb. unfold word_bytes. cbn [seq map skipn firstn app Nat.sub Z.of_nat Pos.of_succ_nat Pos.succ].
  change (256 ^ 7) with 72057594037927936. change (256 ^ 6) with 281474976710656. change (256 ^ 5) with 1099511627776.
  change (256 ^ 4) with 4294967296. change (256 ^ 3) with 16777216. change (256 ^ 2) with 65536. change (256 ^ 1) with 256. change (256 ^ 0) with 1.
  change (2 ^ 32) with 4294967296. change (2 ^ 64) with 18446744073709551616 in *.
  repeat (apply (f_equal2 (@cons Z)); [Z.to_euclidean_division_equations; lia|]). reflexivity.
Qed.

Definition prev_word (a b : Z) : Z := a mod 2 ^ 32 * 2 ^ 32 + b / 2 ^ 32.
Definition prev_words (h : list Z) : list Z :=
  match h with a :: b :: c :: d :: e :: _ => [prev_word a b; prev_word b c; prev_word c d; prev_word d e] | _ => [] end.

Lemma prev_words_bytes h : header_ok h -> header_bytes (prev_words h) = slice 4 32 (header_bytes h).
Proof.
  intros H. destruct (ten h H) as (a & b & c & d & e & f & g & i & j & k & -> & HF).
  cbn [prev_words header_bytes flat_map]. unfold prev_word.
  repeat match goal with H : Forall _ (_ :: _) |- _ => inversion H; clear H; subst end.
  rewrite !shifted_bytes by auto. unfold word_bytes, slice. cbn [seq map app skipn firstn]. reflexivity.
Qed.
Lemma prev_words_int h : header_ok h -> digest_int (words_bits (prev_words h)) = prev_hash_field h.
Proof.
  intros H. rewrite words_bits_bytes, prev_words_bytes by auto. unfold prev_hash_field. apply digest_bytes, slice_Forall, header_bytes_range.
Qed.

Lemma le_int_bound bytes : Forall (fun b => 0 <= b < 256) bytes -> 0 <= le_int bytes < 256 ^ Z.of_nat (List.length bytes).
Proof.
  unfold le_int. induction bytes as [|b bytes IH]; intros HF; cbn [value_of List.length]; [lia|]. inversion HF as [|? ? Hb HF']; subst.
  specialize (IH HF'). replace (Z.of_nat (S (List.length bytes))) with (Z.of_nat (List.length bytes) + 1) by lia.
  rewrite Z.pow_add_r by lia. change (256 ^ 1) with 256. lia.
Qed.
(** Bit 248 of a digest is the most significant one. *)
Lemma top_bit bytes : List.length bytes = 32%nat -> Forall (fun b => 0 <= b < 256) bytes ->
  nth 248 (flat_map byte_bits bytes) false = (2 ^ 255 <=? le_int bytes).
Proof.
  intros HL HF. assert (HS : exists l x, bytes = l ++ [x] /\ List.length l = 31%nat).
  { destruct (exists_last (l := bytes)) as (l & x & E); [now destruct bytes|]. exists l, x. split; auto. subst. rewrite app_length in HL. simpl in HL. lia. }
  destruct HS as (l & x & -> & Hl). apply Forall_app in HF. destruct HF as [F1 F2]. inversion F2 as [|? ? Hx _]; subst.
  rewrite flat_map_app. assert (Hlen : forall l, List.length (flat_map byte_bits l) = (8 * List.length l)%nat).
  { clear. induction l as [|a l IH]; auto. cbn [flat_map List.length]. rewrite app_length, IH. unfold byte_bits. rewrite map_length, seq_length. lia. }
  rewrite app_nth2 by (rewrite Hlen, Hl; lia). rewrite Hlen, Hl. change (248 - 8 * 31)%nat with 0%nat. cbn [flat_map app].
  rewrite app_nil_r. unfold byte_bits. cbn [seq map nth]. change (Z.of_nat (7 - 0)) with 7.
  pose proof (le_int_bound l F1) as B. rewrite Hl in B. unfold le_int in *.
  assert (HV : value_of 256 (l ++ [x]) = value_of 256 l + 256 ^ 31 * x).
  { rewrite value_of_app, Hl. cbn [value_of]. change (Z.of_nat 31) with 31. ring. }
  rewrite HV. change (256 ^ Z.of_nat 31) with (2 ^ 248) in B. change (256 ^ 31) with (2 ^ 248).
  rewrite Z.testbit_odd, Z.shiftr_div_pow2 by lia. change (2 ^ 7) with 128.
  assert (HB : x / 128 = 0 /\ x < 128 \/ x / 128 = 1 /\ 128 <= x) by (Z.to_euclidean_division_equations; lia).
  change (2 ^ 255) with (128 * 2 ^ 248). destruct HB as [[-> HB]|[-> HB]]; cbn [Z.odd]; symmetry; [apply Z.leb_gt|apply Z.leb_le]; nia.
Qed.

Section Ints.
Context {E : Env} {W : Wf E}.

Lemma prev_words_ok h : header_ok h -> rmapM (prev_hash_word h) (seq 0 4) = Ok (prev_words h).
Proof.
  intros H. destruct (ten h H) as (a & b & c & d & e & f & g & i & j & k & -> & HF).
  repeat match goal with H : Forall _ (_ :: _) |- _ => inversion H; clear H; subst end.
  assert (K : forall x y, 0 <= x < 2 ^ 64 -> 0 <= y < 2 ^ 64 -> (let? m := u64_mul (x mod 2 ^ 32) (2 ^ 32) in u64_add m (y / 2 ^ 32)) = Ok (prev_word x y)).
  { intros x y Hx Hy. assert (B1 : 0 <= x mod 2 ^ 32 < 2 ^ 32) by (apply Z.mod_pos_bound; lia).
    assert (B2 : 0 <= y / 2 ^ 32 < 2 ^ 32) by (split; [apply Z.div_pos; lia|apply Z.div_lt_upper_bound; lia]).
    unfold u64_mul, u64_add, checked, two_to.
    replace ((0 <=? x mod 2 ^ 32 * 2 ^ 32) && (x mod 2 ^ 32 * 2 ^ 32 <? 2 ^ 64)) with true by lia. cbn [rbind].
    replace ((0 <=? x mod 2 ^ 32 * 2 ^ 32 + y / 2 ^ 32) && (x mod 2 ^ 32 * 2 ^ 32 + y / 2 ^ 32 <? 2 ^ 64)) with true by lia. reflexivity. }
  cbn [seq rmapM]. unfold prev_hash_word. cbn [idx nth_error unwrap rbind Nat.add]. unfold idx. cbn [nth_error unwrap rbind].
  rewrite !K by auto. reflexivity.
Qed.

(** ** Digest as a scalar *)
Lemma amount_in w n : n < w -> amount w n = Ok n.
Proof. intros H. unfold amount. now replace (n <? w) with true by lia. Qed.
Lemma shl_1 n : 0 <= n < 128 -> u128_shl 1 n = Ok (2 ^ n).
Proof.
  intros H. unfold u128_shl, shl. rewrite amount_in by lia. cbn [rbind]. f_equal. rewrite Z.shiftl_mul_pow2, Z.mul_1_l by lia.
  apply Z.mod_small. split; [lia|]. unfold two_to. apply Z.pow_lt_mono_r; lia.
Qed.
Lemma exponent_eq i : (16 * (i / 8) + 7 - i = 8 * (i / 8) + 7 - i mod 8)%nat.
Proof. pose proof (Nat.div_mod i 8). lia. Qed.
Lemma exponent_bound i : (i < 256)%nat -> (8 * (i / 8) + 7 - i mod 8 < 256)%nat.
Proof. intros H. pose proof (Nat.div_lt_upper_bound i 8 32). lia. Qed.
Lemma exponent_255 i : (i < 256)%nat -> (8 * (i / 8) + 7 - i mod 8 = 255)%nat -> i = 248%nat.
Proof. intros H. pose proof (Nat.div_lt_upper_bound i 8 32). pose proof (Nat.div_mod i 8). lia. Qed.

Definition term_int (i : nat) (v : bool) : Z := if v then bit_weight i else 0.
Lemma hash_term_ok i b v : bool_val b = Some v -> (i < 256)%nat -> (v = true -> i <> 248%nat) -> hash_term i b = Ok (fmk (term_int i v)).
Proof.
  intros Hv Hi H8. unfold hash_term, term_int. rewrite Hv, exponent_eq. unfold bit_weight. set (e := (8 * (i / 8) + 7 - i mod 8)%nat).
  assert (He : (e < 256)%nat) by (apply exponent_bound; auto).
  assert (He2 : v = true -> e <> 255%nat) by (intros Hvt C; apply (H8 Hvt); apply exponent_255; auto).
  cbn [unwrap rbind]. destruct (Nat.leb_spec 128 e) as [H|H].
  - destruct v; cbn [rbind].
    + rewrite shl_1 by (specialize (He2 eq_refl); lia). cbn [rbind]. f_equal. unfold from_u128, fmul. apply eqp_eq. rewrite !eqp_fmk.
      rewrite <- Z.pow_add_r by lia. apply eqp_ring. f_equal. lia.
    + reflexivity.
  - destruct v; cbn [rbind]; [|reflexivity]. rewrite shl_1 by lia. reflexivity.
Qed.
Lemma hash_sum_ok : forall bs vs i sum, map bool_val bs = map Some vs -> (i + List.length vs <= 256)%nat -> canon sum ->
  (forall j, nth_error vs j = Some true -> (i + j <> 248)%nat) -> hash_sum i bs sum = Ok (fmk (sum + digest_sum i vs)).
Proof.
  induction bs as [|b bs IH]; intros [|v vs] i sum HV HL HC H8; try discriminate HV.
  - cbn [hash_sum digest_sum]. rewrite Z.add_0_r, fmk_id by auto. reflexivity.
  - cbn [map] in HV. injection HV as Hb HV. cbn [hash_sum digest_sum List.length] in *.
    rewrite (hash_term_ok i b v Hb) by (try lia; intros ->; intros ->; apply (H8 0%nat eq_refl); lia). cbn [rbind].
    rewrite (IH vs); auto; [|lia|apply fmk_canon|].
    + f_equal. apply eqp_eq. unfold fadd. rewrite !eqp_fmk. apply eqp_ring. unfold term_int. ring.
    + intros j Hj C. apply (H8 (S j) Hj). lia.
Qed.
Lemma hash_scalar_ok bs vs : map bool_val bs = map Some vs -> List.length vs = 256%nat -> nth 248 vs false = false ->
  hash_scalar bs = Ok (fmk (digest_int vs)).
Proof.
  intros HV HL H8. unfold hash_scalar. rewrite (hash_sum_ok bs vs) by (auto; try lia; try apply canon_0;
    intros j Hj C; cbn [Nat.add] in C; subst j; rewrite (nth_error_nth _ _ false Hj) in H8; discriminate).
  now rewrite Z.add_0_l.
Qed.
(** When the top bit is set. *)
Lemma hash_top b : bool_val b = Some true -> hash_term 248 b = if overflow_checks then Panic else Ok (fmk (2 ^ 127)).
Proof.
  intros Hv. unfold hash_term. rewrite Hv. change (16 * (248 / 8) + 7 - 248)%nat with 255%nat. cbn [Nat.leb unwrap rbind].
  unfold u128_shl, shl, amount. change (Z.of_nat (255 - 127) <? 128) with false. cbv iota. destruct overflow_checks; [reflexivity|].
  cbn [rbind]. f_equal. change (Z.of_nat (255 - 127) mod 128) with 0. change (Z.shiftl 1 0 mod two_to 128) with 1. unfold from_u128, fmul.
  apply eqp_eq. rewrite !eqp_fmk. apply eqp_ring. reflexivity.
Qed.
Lemma hash_sum_top : forall bs vs i sum, map bool_val bs = map Some vs -> (i + List.length vs <= 256)%nat -> canon sum ->
  forall j, nth_error vs j = Some true -> (i + j = 248)%nat ->
  hash_sum i bs sum = if overflow_checks then Panic else Ok (fmk (sum + digest_sum i vs - 2 ^ 255 + 2 ^ 127)).
Proof.
  induction bs as [|b bs IH]; intros [|v vs] i sum HV HL HC j Hj Hi; try discriminate HV; [destruct j; discriminate Hj|].
  cbn [map] in HV. injection HV as Hb HV. cbn [hash_sum digest_sum List.length] in *. destruct j as [|j].
  - injection Hj as ->. assert (i = 248%nat) by lia. subst i. rewrite (hash_top b Hb). destruct overflow_checks; [reflexivity|]. cbn [rbind].
    rewrite (hash_sum_ok bs vs 249 _ HV); [|lia|apply fmk_canon|intros j _; lia].
    f_equal. apply eqp_eq. unfold fadd. rewrite !eqp_fmk. apply eqp_ring. change (bit_weight 248) with (2 ^ 255). ring.
  - rewrite (hash_term_ok i b v Hb) by (try lia; intros ->; lia). cbn [rbind].
    rewrite (IH vs (S i) _ HV) with (j := j); [|lia|apply fmk_canon|exact Hj|lia].
    destruct overflow_checks; [reflexivity|].
    f_equal. apply eqp_eq. unfold fadd. rewrite !eqp_fmk. apply eqp_ring. unfold term_int. ring.
Qed.
Lemma hash_scalar_top bs vs : map bool_val bs = map Some vs -> List.length vs = 256%nat -> nth 248 vs false = true ->
  hash_scalar bs = if overflow_checks then Panic else Ok (fmk (digest_int vs - 2 ^ 255 + 2 ^ 127)).
Proof.
  intros HV HL H8. unfold hash_scalar. rewrite (hash_sum_top bs vs 0 fzero HV) with (j := 248%nat); [|lia|apply canon_0| |lia].
  - now rewrite Z.add_0_l.
  - rewrite (nth_error_nth' vs false) by lia. now rewrite H8.
Qed.
End Ints.
