(** The closure of the recomputed target in closed form. *)
From Coq Require Import ZArith Bool List Lia.
From Verif.Model Require Import Base CS Bellpepper Util Poly Bignat Ints Median Difficulty HeaderStep.
From Verif.Spec Require Import Spec SpecTarget.
From Verif.Proofs Require Import Field.
Import ListNotations.
Local Open Scope Z_scope.

Lemma words_of q : 2 ^ 128 <= q -> exists l, digits (2 ^ 64) q = word64 q 0 :: word64 q 1 :: word64 q 2 :: l.
Proof.
  intros H. unfold digits. assert (HL : 128 <= Z.log2 q) by (apply Z.log2_le_pow2; lia).
  replace (Z.to_nat (Z.log2 q)) with (S (S (Z.to_nat (Z.log2 q - 2)))) by lia. generalize (Z.to_nat (Z.log2 q - 2)). intros k.
  cbn [digits_fuel]. destruct (Z.leb_spec q 0) as [H0|H0]; [lia|].
  assert (D1 : 0 < q / 2 ^ 64) by (apply Z.div_str_pos; lia).
  assert (D2 : 0 < q / 2 ^ 64 / 2 ^ 64) by (rewrite Z.div_div by lia; apply Z.div_str_pos; lia).
  destruct (Z.leb_spec (q / 2 ^ 64) 0); [lia|]. destruct (Z.leb_spec (q / 2 ^ 64 / 2 ^ 64) 0); [lia|].
  unfold word64. change (64 * 0) with 0. change (64 * 1) with 64. change (64 * 2) with (64 + 64). rewrite Z.pow_add_r, <- Z.div_div by lia. rewrite Z.pow_0_r, Z.div_1_r.
  eexists. reflexivity.
Qed.
Lemma few_words q : q < 2 ^ 128 -> nth_error (digits (2 ^ 64) q) 2 = None.
Proof.
  intros H. unfold digits. destruct (Z.to_nat (Z.log2 q)) as [|[|k]]; cbn [digits_fuel].
  - destruct (q <=? 0); reflexivity.
  - destruct (q <=? 0); [reflexivity|]. destruct (_ <=? 0); reflexivity.
  - destruct (Z.leb_spec q 0); [reflexivity|]. destruct (Z.leb_spec (q / 2 ^ 64) 0); [reflexivity|].
    destruct (Z.leb_spec (q / 2 ^ 64 / 2 ^ 64) 0) as [|H2]; [reflexivity|]. exfalso. rewrite Z.div_div in H2 by lia. rewrite Z.div_small in H2; lia.
Qed.
Lemma word64_range q i : 0 <= word64 q i < 2 ^ 64.
Proof. unfold word64. apply Z.mod_pos_bound. lia. Qed.

Section Target.
Context {E : Env}.
Lemma closure_at b0 e x q : (let? e := u64_sub b0 3 in u64_mul 8 e) = Ok x -> amount 128 x = Ok e -> 0 <= e < 128 -> 2 ^ 128 <= q ->
  calculated_closure b0 (digits (2 ^ 64) q) = Ok (recomputed modulus e q).
Proof.
  intros HX HE He Hq. destruct (words_of q Hq) as [l HD]. unfold calculated_closure.
  destruct (u64_sub b0 3) as [y|?|]; cbn [rbind] in *; try discriminate HX. rewrite HX. cbn [rbind]. rewrite HD. unfold idx. cbn [nth_error unwrap rbind].
  unfold u128_shr, u128_shl, shr, shl. rewrite HE. cbn [rbind].
  change (amount 128 64) with (@Ok Z 64). cbn [rbind].
  f_equal. unfold recomputed, fmul, fadd, fmk, from_u128, fmk, two_to.
  rewrite !Z.shiftl_mul_pow2, !Z.shiftr_div_pow2 by lia. rewrite Z.mul_1_l.
  pose proof (word64_range q 2) as R2. rewrite (Z.mod_small (word64 q 2 * 2 ^ 64)) by (change (2 ^ 128) with (2 ^ 64 * 2 ^ 64); nia).
  rewrite (Z.mod_small (2 ^ e) (2 ^ 128)) by (split; [apply Z.pow_nonneg; lia|apply Z.pow_lt_mono_r; lia]).
  rewrite <- (Zmult_mod (2 ^ 64 / 2 ^ e)), <- Zplus_mod, <- Zmult_mod. reflexivity.
Qed.
(** Both profiles. *)
Lemma top_recomputed b0 q : 0 <= b0 < 256 -> 2 ^ 128 <= q -> (overflow_checks = true -> 3 <= b0 < 19) ->
  calculated_closure b0 (digits (2 ^ 64) q) = Ok (recomputed modulus (8 * (b0 - 3) mod 128) q).
Proof.
  intros Hb Hq HC.
  assert (HX : exists x, (let? e := u64_sub b0 3 in u64_mul 8 e) = Ok x /\ amount 128 x = Ok (8 * (b0 - 3) mod 128)).
  { unfold u64_sub, u64_mul, checked, amount, two_to. destruct (Z.leb_spec 0 (b0 - 3)) as [H3|H3]; cbn [andb].
    - destruct (Z.ltb_spec (b0 - 3) (2 ^ 64)); [|lia]. cbn [rbind].
      destruct (Z.leb_spec 0 (8 * (b0 - 3))); [|lia]. destruct (Z.ltb_spec (8 * (b0 - 3)) (2 ^ 64)); [|lia]. cbn [andb].
      eexists. split; [reflexivity|]. destruct (Z.ltb_spec (8 * (b0 - 3)) 128); [rewrite Z.mod_small by lia; reflexivity|].
      destruct overflow_checks; [|reflexivity]. specialize (HC eq_refl). lia.
    - destruct overflow_checks; [specialize (HC eq_refl); lia|]. cbn [rbind].
      assert (HM : (b0 - 3) mod 2 ^ 64 = b0 - 3 + 2 ^ 64) by (symmetry; apply (Z.mod_unique _ _ (-1)); lia). rewrite HM.
      destruct (Z.leb_spec 0 (8 * (b0 - 3 + 2 ^ 64))); [|lia]. destruct (Z.ltb_spec (8 * (b0 - 3 + 2 ^ 64)) (2 ^ 64)); [lia|]. cbn [andb].
      eexists. split; [reflexivity|].
      assert (HM2 : 8 * (b0 - 3 + 2 ^ 64) mod 2 ^ 64 = 8 * (b0 - 3) + 2 ^ 64) by (symmetry; apply (Z.mod_unique _ _ 7); lia). rewrite HM2.
      destruct (Z.ltb_spec (8 * (b0 - 3) + 2 ^ 64) 128); [lia|]. f_equal. change (2 ^ 64) with (2 ^ 57 * 128). apply Z_mod_plus_full. }
  destruct HX as (x & H1 & H2). apply (closure_at b0 _ x q H1 H2); [apply Z.mod_pos_bound; lia|exact Hq].
Qed.
Lemma top_recomputed_panics b0 q : 0 <= b0 < 256 -> q < 2 ^ 128 \/ overflow_checks = true /\ (b0 < 3 \/ 19 <= b0) ->
  calculated_closure b0 (digits (2 ^ 64) q) = Panic.
Proof.
  intros Hb HC. pose (r := let? e := u64_sub b0 3 in u64_mul 8 e).
  assert (HX : r = Panic \/ exists x, r = Ok x).
  { subst r. unfold u64_sub, u64_mul, checked. repeat match goal with |- context [if ?c then _ else _] => destruct c end; cbn [rbind]; eauto;
     repeat match goal with |- context [if ?c then _ else _] => destruct c end; eauto. }
  unfold calculated_closure. destruct HX as [HX|[x HX]]; subst r.
  { destruct (u64_sub b0 3); cbn [rbind] in *; try discriminate HX; rewrite ?HX; reflexivity. }
  destruct HC as [Hq|[HC HB]].
  - destruct (u64_sub b0 3); cbn [rbind] in *; try discriminate HX. rewrite HX. cbn [rbind]. unfold idx. rewrite (few_words q Hq).
    destruct (nth_error (digits (2 ^ 64) q) 0); cbn [unwrap rbind]; [|reflexivity]. destruct (nth_error (digits (2 ^ 64) q) 1); cbn [unwrap rbind]; [|reflexivity].
    unfold u128_shl, u128_shr, shl, shr. change (amount 128 64) with (@Ok Z 64). cbn [rbind]. unfold amount.
    destruct (x <? 128); cbn [rbind]; [reflexivity|]. destruct overflow_checks; reflexivity.
  - unfold u64_sub, u64_mul, checked in *. rewrite HC in *. unfold two_to in *.
    destruct (Z.leb_spec 0 (b0 - 3)) as [H3|H3]; cbn [andb rbind] in *; [|discriminate HX].
    destruct (Z.ltb_spec (b0 - 3) (2 ^ 64)); cbn [andb rbind] in *; [|discriminate HX].
    destruct (Z.leb_spec 0 (8 * (b0 - 3))); cbn [andb rbind] in *; [|discriminate HX].
    destruct (Z.ltb_spec (8 * (b0 - 3)) (2 ^ 64)); cbn [andb rbind] in *; [|discriminate HX]. injection HX as <-.
    unfold idx. destruct (nth_error (digits (2 ^ 64) q) 0); cbn [unwrap rbind]; [|reflexivity]. destruct (nth_error (digits (2 ^ 64) q) 1); cbn [unwrap rbind]; [|reflexivity].
    unfold u128_shl, u128_shr, shl, shr. change (amount 128 64) with (@Ok Z 64). cbn [rbind]. unfold amount.
    destruct (Z.ltb_spec (8 * (b0 - 3)) 128); [lia|]. rewrite HC. reflexivity.
Qed.
End Target.

(** ** The closed form against the quotient *)
Lemma sum_mod a : a * 2 ^ 64 mod 2 ^ 128 = a mod 2 ^ 64 * 2 ^ 64.
Proof. change (2 ^ 128) with (2 ^ 64 * 2 ^ 64). apply Z.mul_mod_distr_r; lia. Qed.
(** Shift up to 64. *)
Lemma low_shift p e q : 0 <= e <= 64 ->
  recomputed p e q = (word64 q 2 * 2 ^ 128 + (word64 q 0 + word64 q 1) mod 2 ^ 64 * 2 ^ 64) mod p.
Proof.
  intros He. unfold recomputed. rewrite sum_mod. f_equal. assert (H64 : 2 ^ 64 = 2 ^ (64 - e) * 2 ^ e) by (rewrite <- Z.pow_add_r by lia; f_equal; lia).
  set (a := (word64 q 0 + word64 q 1) mod 2 ^ 64). set (c := word64 q 2).
  assert (D1 : 2 ^ 64 / 2 ^ e = 2 ^ (64 - e)) by (rewrite H64; apply Z.div_mul; lia).
  assert (D2 : a * 2 ^ 64 / 2 ^ e = a * 2 ^ (64 - e)) by (rewrite H64, Z.mul_assoc; apply Z.div_mul; lia).
  rewrite D1, D2. change (2 ^ 128) with (2 ^ 64 * 2 ^ 64). rewrite Z.mul_add_distr_r. f_equal.
  - transitivity (c * 2 ^ 64 * (2 ^ (64 - e) * 2 ^ e)); [ring|]. rewrite <- H64. ring.
  - rewrite <- Z.mul_assoc, <- H64. reflexivity.
Qed.
(** Shift above 64: below 2^128. *)
Lemma high_shift p e q : 64 < e < 128 -> 2 ^ 128 <= p -> recomputed p e q < 2 ^ 128 /\
  recomputed p e q = (word64 q 0 + word64 q 1) mod 2 ^ 64 * 2 ^ 64 / 2 ^ e * 2 ^ e.
Proof.
  intros He Hp. unfold recomputed. rewrite sum_mod. set (a := (word64 q 0 + word64 q 1) mod 2 ^ 64).
  assert (HA : 0 <= a < 2 ^ 64) by (apply Z.mod_pos_bound; lia).
  assert (D1 : 2 ^ 64 / 2 ^ e = 0) by (apply Z.div_small; split; [lia|apply Z.pow_lt_mono_r; lia]). rewrite D1, Z.mul_0_l, Z.add_0_l.
  assert (HE : 0 < 2 ^ e) by (apply Z.pow_pos_nonneg; lia).
  assert (HB : 0 <= a * 2 ^ 64 / 2 ^ e * 2 ^ e <= a * 2 ^ 64).
  { split; [apply Z.mul_nonneg_nonneg; [apply Z.div_pos; lia|lia]|]. rewrite Z.mul_comm. apply Z.mul_div_le. lia. }
  assert (a * 2 ^ 64 < 2 ^ 128) by (change (2 ^ 128) with (2 ^ 64 * 2 ^ 64); nia).
  rewrite Z.mod_small by lia. split; [lia|reflexivity].
Qed.
Lemma three_words q : 0 <= q < 2 ^ 192 -> q = word64 q 0 + word64 q 1 * 2 ^ 64 + word64 q 2 * 2 ^ 128.
Proof.
  intros H. unfold word64. change (64 * 0) with 0. change (64 * 1) with 64. change (64 * 2) with 128. rewrite Z.pow_0_r, Z.div_1_r.
  rewrite (Z.mod_small (q / 2 ^ 128)) by (split; [apply Z.div_pos; lia|apply Z.div_lt_upper_bound; [lia|]; change (2 ^ 128 * 2 ^ 64) with (2 ^ 192); lia]).
  replace (q / 2 ^ 128) with (q / 2 ^ 64 / 2 ^ 64) by (rewrite Z.div_div by lia; reflexivity).
  pose proof (Z.div_mod q (2 ^ 64) ltac:(lia)). pose proof (Z.div_mod (q / 2 ^ 64) (2 ^ 64) ltac:(lia)).
  change (2 ^ 128) with (2 ^ 64 * 2 ^ 64). lia.
Qed.
Lemma top_recomputed_exact p e q : 2 ^ 192 <= p -> 0 <= e <= 64 -> 0 <= q < 2 ^ 192 -> (recomputed p e q = q <-> word64 q 0 = 0).
Proof.
  intros Hp He Hq. rewrite low_shift by lia. pose proof (word64_range q 0) as R0. pose proof (word64_range q 1) as R1. pose proof (word64_range q 2) as R2.
  set (a := (word64 q 0 + word64 q 1) mod 2 ^ 64) in *. assert (HA : 0 <= a < 2 ^ 64) by (apply Z.mod_pos_bound; lia).
  rewrite Z.mod_small by (change (2 ^ 192) with (2 ^ 64 * 2 ^ 128) in *; split; nia).
  pose proof (three_words q Hq) as H3. split.
  - intros HQ. assert (HZ : word64 q 0 = (word64 q 2 * 2 ^ 64 + a - word64 q 1 - word64 q 2 * 2 ^ 64) * 2 ^ 64) by (change (2 ^ 128) with (2 ^ 64 * 2 ^ 64) in *; lia). nia.
  - intros H0. subst a. rewrite H0, Z.add_0_l, Z.mod_small by lia. lia.
Qed.

(** The quotient has [n] bytes and the header announces that size: with overflow checks the result is never the right one,
    without them never from 25 bytes on. *)
Lemma three_bytes_ge q n : 3 <= n -> has_bytes q n -> 2 ^ (8 * (n - 1)) <= three_bytes q n.
Proof.
  intros Hn [H1 H2]. unfold three_bytes. replace (8 * (n - 1)) with (16 + 8 * (n - 3)) in * by lia.
  rewrite Z.pow_add_r in * by lia. apply Z.mul_le_mono_nonneg_r; [apply Z.pow_nonneg; lia|]. apply Z.div_le_lower_bound; [apply Z.pow_pos_nonneg; lia|]. lia.
Qed.
Section Never.
Context {E : Env}.
Lemma top_never_checked q n : overflow_checks = true -> 2 ^ 128 <= modulus -> 0 < n -> has_bytes q n ->
  calculated_closure n (digits (2 ^ 64) q) <> Ok (three_bytes q n).
Proof.
  intros HC HP Hn HB HR. destruct (Z_lt_le_dec n 17) as [H17|H17].
  - rewrite top_recomputed_panics in HR; [discriminate HR|lia|]. left. destruct HB as [_ HB]. eapply Z.lt_le_trans; [exact HB|]. apply Z.pow_le_mono_r; lia.
  - destruct (Z_lt_le_dec n 19) as [H19|H19].
    + assert (HQ : 2 ^ 128 <= q) by (destruct HB as [HB _]; eapply Z.le_trans; [|exact HB]; apply Z.pow_le_mono_r; lia).
      rewrite top_recomputed in HR by lia. assert (HR' : recomputed modulus (8 * (n - 3) mod 128) q = three_bytes q n) by congruence. clear HR. rename HR' into HR. rewrite (Z.mod_small (8 * (n - 3))) in HR by lia.
      destruct (high_shift modulus (8 * (n - 3)) q ltac:(lia) HP) as [H _]. rewrite HR in H.
      pose proof (three_bytes_ge q n ltac:(lia) HB). assert (2 ^ 128 <= 2 ^ (8 * (n - 1))) by (apply Z.pow_le_mono_r; lia). lia.
    + destruct (Z_lt_le_dec n 256) as [H256|H256]; [rewrite top_recomputed_panics in HR; [discriminate HR|lia|right; split; [exact HC|lia]]|].
      revert HR. unfold calculated_closure, u64_sub, u64_mul, checked. rewrite HC. destruct (_ && _); cbn [rbind]; [|discriminate].
      destruct (_ && _); cbn [rbind]; [|discriminate]. unfold idx. destruct (nth_error _ 0); cbn [unwrap rbind]; [|discriminate]. destruct (nth_error _ 1); cbn [unwrap rbind]; [|discriminate].
      unfold u128_shl, u128_shr, shl, shr. change (amount 128 64) with (@Ok Z 64). cbn [rbind]. unfold amount.
      destruct (Z.ltb_spec (8 * (n - 3)) 128); [lia|]. rewrite HC. discriminate.
Qed.
Lemma top_never_large q n : 2 ^ 192 <= modulus -> 25 <= n <= 32 -> has_bytes q n ->
  calculated_closure n (digits (2 ^ 64) q) <> Ok (three_bytes q n).
Proof.
  intros HP Hn HB. destruct overflow_checks eqn:HC; [apply top_never_checked; auto; lia|]. intros HR.
  assert (HQ : 2 ^ 192 <= q) by (destruct HB as [HB _]; eapply Z.le_trans; [|exact HB]; apply Z.pow_le_mono_r; lia).
  rewrite top_recomputed in HR by (try congruence; lia). assert (HR' : recomputed modulus (8 * (n - 3) mod 128) q = three_bytes q n) by congruence. clear HR. rename HR' into HR.
  pose proof (three_bytes_ge q n ltac:(lia) HB) as HG. assert (2 ^ 192 <= 2 ^ (8 * (n - 1))) by (apply Z.pow_le_mono_r; lia).
  assert (HE : 8 * (n - 3) mod 128 = 8 * (n - 3) - 128) by (symmetry; apply (Z.mod_unique _ _ 1); lia). rewrite HE in HR.
  destruct (Z_le_gt_dec (8 * (n - 3) - 128) 64) as [HS|HS].
  - rewrite low_shift in HR by lia. pose proof (word64_range q 2). assert (HA : 0 <= (word64 q 0 + word64 q 1) mod 2 ^ 64 < 2 ^ 64) by (apply Z.mod_pos_bound; lia).
    rewrite Z.mod_small in HR by (change (2 ^ 192) with (2 ^ 64 * 2 ^ 128) in *; split; nia).
    change (2 ^ 192) with (2 ^ 64 * 2 ^ 128) in *. nia.
  - destruct (high_shift modulus (8 * (n - 3) - 128) q ltac:(lia) ltac:(lia)) as [H' _]. lia.
Qed.
End Never.
