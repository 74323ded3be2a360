(** The previous-hash and proof-of-work stages of header_step.rs. *)
From Coq Require Import ZArith Bool String List Lia ZifyBool ZifyNat.
From Verif.Model Require Import Base Sha256 CS Bellpepper Util Poly Bignat Ints Median Difficulty HeaderStep.
From Verif.Spec Require Import Spec SpecHeader.
From Verif.Proofs Require Import Field Wp Lc Arith Convert Limbs Owp Pwp BignatEq MedianP MedianV Shp TopBignat1 TopMedian DifficultyP TopDifficulty HashP HeaderInts HeaderBytes Panics.
Import ListNotations.
Local Open Scope string_scope.
Local Open Scope Z_scope.
Local Open Scope list_scope.

(** ** Digests as bytes *)
Lemma byte_of_bits b7 b6 b5 b4 b3 b2 b1 b0 : exists x, 0 <= x < 256 /\ byte_bits x = [b7; b6; b5; b4; b3; b2; b1; b0].
Proof.
  exists (128 * Z.b2z b7 + 64 * Z.b2z b6 + 32 * Z.b2z b5 + 16 * Z.b2z b4 + 8 * Z.b2z b3 + 4 * Z.b2z b2 + 2 * Z.b2z b1 + Z.b2z b0).
  split; [destruct b7, b6, b5, b4, b3, b2, b1, b0; cbn; lia|].
  destruct b7, b6, b5, b4, b3, b2, b1, b0; reflexivity.
Qed.
Lemma bytes_of_bits : forall n bs, List.length bs = (8 * n)%nat ->
  exists bytes, List.length bytes = n /\ Forall (fun b => 0 <= b < 256) bytes /\ bs = flat_map byte_bits bytes.
Proof.
  induction n as [|n IH]; intros bs HL.
  - exists []. destruct bs; [|discriminate HL]. split; [reflexivity|]. split; [constructor|reflexivity].
  - replace (8 * S n)%nat with (8 + 8 * n)%nat in HL by lia.
    do 8 (destruct bs as [|? bs]; [discriminate HL|]). cbn [List.length Nat.add] in HL.
    destruct (IH bs) as (bytes & H1 & H2 & H3); [lia|]. destruct (byte_of_bits b b0 b1 b2 b3 b4 b5 b6) as (x & Hx & Hb).
    exists (x :: bytes). split; [cbn [List.length]; lia|]. split; [constructor; auto|]. cbn [flat_map]. now rewrite Hb, H3.
Qed.
Lemma digest_top bs : List.length bs = 256%nat -> nth 248 bs false = (2 ^ 255 <=? digest_int bs) /\ 0 <= digest_int bs < 2 ^ 256.
Proof.
  intros HL. destruct (bytes_of_bits 32 bs HL) as (bytes & H1 & H2 & H3). pose proof (top_bit bytes H1 H2) as HT. pose proof (le_int_bound bytes H2) as HB.
  rewrite H1 in HB. rewrite <- (digest_bytes bytes H2), <- H3 in HB, HT. split; [exact HT|exact HB].
Qed.

Section HeaderP.
Context {E : Env} {W : Wf E}.

(** What the honest run makes of a digest: the digest itself, unless its top bit is set. *)
Definition digest_scalar (bs : list bool) : res Z :=
  if digest_int bs <? 2 ^ 255 then Ok (fmk (digest_int bs))
  else if overflow_checks then Panic else Ok (fmk (digest_int bs - 2 ^ 255 + 2 ^ 127)).
Lemma hash_scalar_eq bs vs : map bool_val bs = map Some vs -> List.length vs = 256%nat -> hash_scalar bs = digest_scalar vs.
Proof.
  intros HV HL. unfold digest_scalar. destruct (digest_top vs HL) as [HT _]. destruct (Z.ltb_spec (digest_int vs) (2 ^ 255)).
  - apply hash_scalar_ok; auto. rewrite HT. lia.
  - apply hash_scalar_top; auto. rewrite HT. lia.
Qed.
Lemma digest_scalar_canon bs v : digest_scalar bs = Ok v -> canon v.
Proof. unfold digest_scalar. destruct (_ <? _); [|destruct overflow_checks]; intros H; try discriminate; injection H as <-; apply fmk_canon. Qed.

Section Rho.
Variable rho : assignment.
Hypothesis one : rho ONE = 1.

Lemma words_hwp pre ws : hwp rho (words_to_bits pre ws) (fun r => bits_are rho r (words_bits ws) /\ map bool_val r = map Some (words_bits ws)).
Proof.
  eapply hwp_awp. pose proof (words_to_bits_awp rho one Honest pre ws _ (whole_honest ws)) as H. rewrite whole_concat in H. exact H.
Qed.
Lemma an_u_ok nm w v : w = Ok v -> canon v -> hwp rho (an_u nm w) (fun a => is_an rho a v).
Proof. intros Hw Hc. unfold an_u. do 2 hstep. eapply an_alloc_hwp; [exact Hw|]. intros x Hx. apply is_an_mk; auto. Qed.
Lemma an_u_panic {B} nm w (f : allocated_num -> prog B) : w = Panic -> owp rho (bind (an_u nm w) f) (fun r => r = Panic).
Proof. intros ->. reflexivity. Qed.
Lemma assert_hwp b : bool_val b = Some true -> hwp rho (assert_true b) (fun _ => True).
Proof. intros H. unfold assert_true. rewrite H. cbn [unwrap lift bind assert hwp]. exact I. Qed.
Lemma assert_owp {B} b (f : unit -> prog B) : bool_val b = Some false -> owp rho (bind (assert_true b) f) (fun r => r = Panic).
Proof. intros H. unfold assert_true. rewrite H. reflexivity. Qed.

(** ** Previous hash *)
Lemma prev_length h : header_ok h -> List.length (words_bits (prev_words h)) = 256%nat.
Proof. intros H. destruct (ten h H) as (a & b & c & d & e & f & g & i & j & k & -> & _). now rewrite words_bits_length. Qed.

Lemma prev_hwp h z z0 v : header_ok h -> nth_error z 0 = Some z0 -> is_an rho z0 v -> digest_scalar (words_bits (prev_words h)) = Ok v ->
  hwp rho (stage_prev_hash h z) (fun a => is_an rho a v).
Proof.
  intros H Hz Iz HS. unfold stage_prev_hash. rewrite (prev_words_ok h H). do 2 hstep; [reflexivity|].
  hstep. eapply hwp_mono; [apply words_hwp|]. cbv beta. intros bits [_ HV].
  hstep. eapply hwp_mono; [apply an_u_ok with (v := v); [rewrite (hash_scalar_eq _ _ HV (prev_length h H)); exact HS|apply Iz]|]. intros ph Hph.
  do 2 hstep; [unfold idx; rewrite Hz; reflexivity|]. do 3 hstep. eapply hwp_mono; [apply (equals_hwp rho one z0 ph v v Iz Hph)|]. cbv beta. rewrite Z.eqb_refl.
  intros r [Hr _]. hstep. eapply hwp_mono; [apply assert_hwp; exact Hr|]. intros _ _. hstep. exact Hph.
Qed.
Lemma prev_panics h z z0 v : header_ok h -> nth_error z 0 = Some z0 -> is_an rho z0 v -> digest_scalar (words_bits (prev_words h)) <> Ok v ->
  owp rho (stage_prev_hash h z) (fun r => r = Panic).
Proof.
  intros H Hz Iz HS. unfold stage_prev_hash. rewrite (prev_words_ok h H). cbn [lift bind].
  eapply owp_bind_ok; [apply words_hwp|]. cbv beta. intros bits [_ HV]. pose proof (hash_scalar_eq _ _ HV (prev_length h H)) as HE.
  assert (HD : (exists x, hash_scalar bits = Ok x) \/ hash_scalar bits = Panic).
  { rewrite HE. unfold digest_scalar. destruct (_ <? _); [|destruct overflow_checks]; eauto. }
  destruct HD as [[x Hx]|Hx]; [|apply an_u_panic; exact Hx].
  assert (Cx : canon x) by (eapply digest_scalar_canon; rewrite <- HE; exact Hx).
  eapply owp_bind_ok; [apply an_u_ok; [exact Hx|exact Cx]|]. intros ph Hph. unfold idx. rewrite Hz. cbn [unwrap lift bind].
  eapply owp_step; [apply (equals_hwp rho one z0 ph v x Iz Hph)|]. cbv beta. intros r [Hr _]. apply assert_owp. rewrite Hr. f_equal. apply Z.eqb_neq. congruence.
Qed.

(** ** Proof of work *)
Definition pow_ok (hash target : Z) : bool := fsub (fadd hash (fmk (2 ^ 226))) target <? 2 ^ 225.
Lemma pow_hwp h b T v : header_ok h -> (225 < NUM_BITS)%nat -> split_bytes (nth 9 h 0 / 2 ^ 32) = Ok b -> target_closure b = Ok T -> canon T ->
  digest_scalar (sha256d (words_bits h)) = Ok v -> pow_ok v T = true ->
  hwp rho (stage_pow h) (fun p => fst (fst p) = b /\ is_an rho (snd (fst p)) T /\ is_an rho (snd p) v).
Proof.
  intros H HN HB HT CT HS HP. assert (Cv : canon v) by (eapply digest_scalar_canon; exact HS).
  unfold stage_pow. do 2 hstep; [unfold idx; rewrite (nth_error_nth' h 0) by (rewrite (proj1 H); lia); reflexivity|].
  do 2 hstep; [unfold u64_shr; apply shr_in; lia|]. do 2 hstep; [exact HB|].
  hstep. eapply hwp_mono; [apply an_u_ok; [exact HT|exact CT]|]. intros target Htgt.
  hstep. eapply hwp_mono; [apply words_hwp|]. cbv beta. intros bits [HW HV].
  assert (HL8 : (List.length bits mod 8 = 0)%nat) by (rewrite (bits_len _ _ _ HW), words_bits_length; apply mod8_64).
  hstep. eapply hwp_mono; [eapply hwp_awp; apply (sha_unwrap rho _ Honest bits (words_bits h)); [exact HL8|apply HW|intros _; exact HV]|]. intros o1 [B1 V1].
  assert (HL8' : (List.length o1 mod 8 = 0)%nat) by (rewrite (bits_len _ _ _ B1), sha256_length; reflexivity).
  hstep. eapply hwp_mono; [eapply hwp_awp; apply (sha_unwrap rho _ Honest o1 (sha256 (words_bits h))); [exact HL8'|apply B1|exact V1]|]. intros o2 [B2 V2].
  assert (HS2 : hash_scalar o2 = Ok v) by (rewrite (hash_scalar_eq o2 (sha256d (words_bits h)) (V2 eq_refl)); [exact HS|apply sha256_length]).
  hstep. eapply hwp_mono; [apply an_u_ok; [exact HS2|exact Cv]|]. intros hash Hh.
  do 3 hstep. eapply hwp_mono; [apply (less_than_hwp rho one hash target 224 v T _ Hh Htgt (zero_shift_high 224 ltac:(lia)) ltac:(lia))|]. cbv beta.
  change (Z.of_nat 224 + 2) with 226. change (Z.of_nat (1 + 224)) with 225. fold (pow_ok v T). rewrite HP. intros r [Hr _].
  hstep. eapply hwp_mono; [apply assert_hwp; exact Hr|]. intros _ _. hstep. cbn [fst snd]. split; [reflexivity|]. split; assumption.
Qed.
Lemma pow_panics h : header_ok h -> (225 < NUM_BITS)%nat ->
  (forall b T v, split_bytes (nth 9 h 0 / 2 ^ 32) = Ok b -> target_closure b = Ok T -> digest_scalar (sha256d (words_bits h)) = Ok v -> canon T /\ pow_ok v T = false) ->
  owp rho (stage_pow h) (fun r => r = Panic).
Proof.
  intros H HN HP. unfold stage_pow. unfold idx. rewrite (nth_error_nth' h 0) by (rewrite (proj1 H); lia). cbn [unwrap lift bind].
  unfold u64_shr. rewrite shr_in by lia. cbn [lift bind].
  assert (ND : forall (r : res Z), r = digest_scalar (sha256d (words_bits h)) -> (exists x, r = Ok x) \/ r = Panic).
  { intros r ->. unfold digest_scalar. destruct (_ <? _); [|destruct overflow_checks]; eauto. }
  destruct (split_bytes (nth 9 h 0 / 2 ^ 32)) as [b|e|] eqn:HB; [| |reflexivity].
  2:{ exfalso. destruct (nbits_field_swap h H) as [_ R]. destruct overflow_checks eqn:HO.
      - rewrite split_checked in HB by auto. destruct (_ <? _); discriminate.
      - rewrite split_wrap in HB by auto. discriminate. }
  cbn [lift bind]. destruct (target_closure b) as [T|e|] eqn:HT; [| |apply an_u_panic; reflexivity].
  2:{ apply owp_skip. intros a. clear HP. exfalso. revert HT. unfold target_closure, u64_add, u64_shl, u64_sub, u128_shl, u64_mul, shl, amount, checked.
      repeat (match goal with |- context [if ?c then _ else _] => destruct c end; cbn [rbind]; try discriminate). }
  destruct (digest_scalar (sha256d (words_bits h))) as [v|e|] eqn:HS.
  - assert (CT : canon T) by (destruct (HP b T v); auto).
    eapply owp_bind_ok; [apply an_u_ok; [reflexivity|exact CT]|]. intros target Htgt.
    eapply owp_bind_ok; [apply words_hwp|]. cbv beta. intros bits [HW HV].
    assert (HL8 : (List.length bits mod 8 = 0)%nat) by (rewrite (bits_len _ _ _ HW), words_bits_length; apply mod8_64).
    eapply owp_bind_ok; [eapply hwp_awp; apply (sha_unwrap rho _ Honest bits (words_bits h)); [exact HL8|apply HW|intros _; exact HV]|]. intros o1 [B1 V1].
    assert (HL8' : (List.length o1 mod 8 = 0)%nat) by (rewrite (bits_len _ _ _ B1), sha256_length; reflexivity).
    eapply owp_bind_ok; [eapply hwp_awp; apply (sha_unwrap rho _ Honest o1 (sha256 (words_bits h))); [exact HL8'|apply B1|exact V1]|]. intros o2 [B2 V2].
    assert (HS2 : hash_scalar o2 = Ok v) by (rewrite (hash_scalar_eq o2 (sha256d (words_bits h)) (V2 eq_refl)); [exact HS|apply sha256_length]).
    assert (Cv : canon v) by (eapply digest_scalar_canon; exact HS).
    eapply owp_bind_ok; [apply an_u_ok; [exact HS2|exact Cv]|]. intros hash Hh.
    eapply owp_step; [apply (less_than_hwp rho one hash target 224 v T _ Hh Htgt (zero_shift_high 224 ltac:(lia)) ltac:(lia))|]. cbv beta.
    change (Z.of_nat 224 + 2) with 226. change (Z.of_nat (1 + 224)) with 225. fold (pow_ok v T). intros r [Hr _]. apply assert_owp. rewrite Hr. f_equal. now apply (HP b T v).
  - destruct (ND _ eq_refl) as [[x Hx]|Hx]; discriminate.
  - apply owp_skip. intros target.
    eapply owp_bind_ok; [apply words_hwp|]. cbv beta. intros bits [HW HV].
    assert (HL8 : (List.length bits mod 8 = 0)%nat) by (rewrite (bits_len _ _ _ HW), words_bits_length; apply mod8_64).
    eapply owp_bind_ok; [eapply hwp_awp; apply (sha_unwrap rho _ Honest bits (words_bits h)); [exact HL8|apply HW|intros _; exact HV]|]. intros o1 [B1 V1].
    assert (HL8' : (List.length o1 mod 8 = 0)%nat) by (rewrite (bits_len _ _ _ B1), sha256_length; reflexivity).
    eapply owp_bind_ok; [eapply hwp_awp; apply (sha_unwrap rho _ Honest o1 (sha256 (words_bits h))); [exact HL8'|apply B1|exact V1]|]. intros o2 [B2 V2].
    apply an_u_panic. rewrite (hash_scalar_eq o2 (sha256d (words_bits h)) (V2 eq_refl)); [exact HS|apply sha256_length].
Qed.
End Rho.

(** ** Top-level statements *)
Lemma is_an_at s s' a v : (forall rho, agree s' rho -> agree s rho) -> (forall rho, agree s' rho -> is_an rho a v) -> an_at s' a v.
Proof.
  intros _ H. destruct (H _ (agree_asg s')) as (H1 & H2 & _). split; [exact H1|]. split; [exact H2|]. intros rho Ha _. apply feval_eqp; [exact H2|].
  rewrite lc_eval_var. apply (H rho Ha).
Qed.
Lemma prev_scalar h : header_ok h -> digest_scalar (words_bits (prev_words h)) =
  if prev_hash_field h <? 2 ^ 255 then Ok (fmk (prev_hash_field h)) else if overflow_checks then Panic else Ok (fmk (prev_hash_field h - 2 ^ 255 + 2 ^ 127)).
Proof. intros H. unfold digest_scalar. now rewrite prev_words_int. Qed.

Lemma prev_run_ok h z z0 v s : good s -> header_ok h -> nth_error z 0 = Some z0 -> an_at s z0 v -> digest_scalar (words_bits (prev_words h)) = Ok v ->
  exists a s', run true (stage_prev_hash h z) s = (Ok a, s') /\ good s' /\ an_at s' a v.
Proof.
  intros G H Hz Iz HS. destruct (hwp_run (stage_prev_hash h z) s (fun rho a => is_an rho a v) G) as (a & s' & Hr & Hg & HA & HQ).
  { intros rho Hag one. eapply prev_hwp; eauto. exact (an_at_is _ _ _ _ Iz Hag one). }
  exists a, s'. split; [exact Hr|]. split; [exact Hg|]. apply (is_an_at s); auto.
Qed.
Lemma prev_run_panic h z z0 v s : good s -> header_ok h -> nth_error z 0 = Some z0 -> an_at s z0 v -> digest_scalar (words_bits (prev_words h)) <> Ok v ->
  fst (run true (stage_prev_hash h z) s) = Panic.
Proof.
  intros G H Hz Iz HS. apply (owp_result _ s (fun r => r = Panic) G). intros rho Hag one. eapply prev_panics; eauto. exact (an_at_is _ _ _ _ Iz Hag one).
Qed.

Theorem top_prev_accepts h z z0 s : good s -> header_ok h -> nth_error z 0 = Some z0 -> prev_hash_field h < 2 ^ 255 ->
  an_at s z0 (prev_hash_field h mod modulus) ->
  exists a s', run true (stage_prev_hash h z) s = (Ok a, s') /\ good s' /\ an_at s' a (prev_hash_field h mod modulus).
Proof.
  intros G H Hz HB Iz. apply (prev_run_ok h z z0); auto. rewrite prev_scalar by auto. now replace (prev_hash_field h <? 2 ^ 255) with true by lia.
Qed.
Theorem top_prev_rejects h z z0 v s : good s -> header_ok h -> nth_error z 0 = Some z0 -> prev_hash_field h < 2 ^ 255 ->
  an_at s z0 v -> v <> prev_hash_field h mod modulus -> fst (run true (stage_prev_hash h z) s) = Panic.
Proof.
  intros G H Hz HB Iz HV. apply (prev_run_panic h z z0 v); auto. rewrite prev_scalar by auto. replace (prev_hash_field h <? 2 ^ 255) with true by lia.
  unfold fmk. congruence.
Qed.
Theorem top_prev_high h z z0 v s : good s -> header_ok h -> nth_error z 0 = Some z0 -> 2 ^ 255 <= prev_hash_field h -> an_at s z0 v ->
  (overflow_checks = true -> fst (run true (stage_prev_hash h z) s) = Panic) /\
  (overflow_checks = false -> (exists a s', run true (stage_prev_hash h z) s = (Ok a, s')) <-> v = (prev_hash_field h - 2 ^ 255 + 2 ^ 127) mod modulus).
Proof.
  intros G H Hz HB Iz. assert (HS := prev_scalar h H). replace (prev_hash_field h <? 2 ^ 255) with false in HS by lia.
  split; intros HO; rewrite HO in HS.
  - apply (prev_run_panic h z z0 v); auto. rewrite HS. discriminate.
  - fold (fmk (prev_hash_field h - 2 ^ 255 + 2 ^ 127)). split.
    + intros (a & s' & Hr). destruct (Z.eq_dec v (fmk (prev_hash_field h - 2 ^ 255 + 2 ^ 127))) as [e|n]; auto. exfalso.
      pose proof (prev_run_panic h z z0 v s G H Hz Iz) as C. rewrite Hr, HS in C. assert (D : Ok a = Panic) by (apply C; congruence). discriminate D.
    + intros ->. destruct (prev_run_ok h z z0 _ s G H Hz Iz HS) as (a & s' & Hr & _). eauto.
Qed.

Lemma decoded_range h T : header_ok h -> 2 ^ 130 <= modulus -> decode_target (nth 9 h 0 / 2 ^ 32) = Ok T -> 0 <= T < 2 ^ 128.
Proof.
  intros H HP HT. destruct (nbits_field_swap h H) as [_ R]. destruct overflow_checks eqn:HO.
  - rewrite decode_checked in HT by auto. destruct (_ && _); [|discriminate]. injection HT as <-. lia.
  - destruct (decode_wrap _ HO R) as [c Hc]. rewrite Hc in HT. match type of HT with Ok ?a = _ => assert (e : a = T) by congruence end. rewrite <- e. clear HT e Hc. destruct (_ && _); [|lia].
    match goal with |- context [?x mod 2 ^ 128] => pose proof (Z.mod_pos_bound x (2 ^ 128) ltac:(lia)) as B; set (y := x mod 2 ^ 128) in * end.
    rewrite fmk_id by (split; lia). exact B.
Qed.

(** The check on which the stage stands. *)
Theorem top_pow_iff h T s : good s -> header_ok h -> 2 ^ 228 <= modulus -> digest_int (sha256d (words_bits h)) < 2 ^ 255 ->
  (let? b := split_bytes (nth 9 h 0 / 2 ^ 32) in target_closure b) = Ok T ->
  ((exists p s', run true (stage_pow h) s = (Ok p, s') /\ good s' /\ an_at s' (snd (fst p)) T /\ an_at s' (snd p) (digest_int (sha256d (words_bits h)) mod modulus)) <->
   (digest_int (sha256d (words_bits h)) + 2 ^ 226 - T) mod modulus < 2 ^ 225) /\
  (~ (digest_int (sha256d (words_bits h)) + 2 ^ 226 - T) mod modulus < 2 ^ 225 -> fst (run true (stage_pow h) s) = Panic).
Proof.
  intros G H HP HH HT. assert (HN : (225 < NUM_BITS)%nat) by (apply num_bits_above; change (Z.of_nat 225) with 225; lia).
  pose proof (decoded_range h T H ltac:(lia) HT) as RT. assert (CT : canon T) by (split; lia).
  destruct (split_bytes (nth 9 h 0 / 2 ^ 32)) as [b| |] eqn:HB; try discriminate HT. cbn [rbind] in HT.
  assert (HS : digest_scalar (sha256d (words_bits h)) = Ok (fmk (digest_int (sha256d (words_bits h))))).
  { unfold digest_scalar. now replace (digest_int (sha256d (words_bits h)) <? 2 ^ 255) with true by lia. }
  set (H0 := digest_int (sha256d (words_bits h))) in *.
  assert (HE : pow_ok (fmk H0) T = ((H0 + 2 ^ 226 - T) mod modulus <? 2 ^ 225)).
  { unfold pow_ok. f_equal. apply canon_eqp; [apply fsub_canon|apply fmk_canon|]. unfold fsub, fadd. rewrite !eqp_fmk. symmetry. apply eqp_fmk. }
  assert (HPan : ~ (H0 + 2 ^ 226 - T) mod modulus < 2 ^ 225 -> fst (run true (stage_pow h) s) = Panic).
  { intros HC. apply (owp_result _ s (fun r => r = Panic) G). intros rho Hag one. apply pow_panics; auto. intros b' T' v' E1 E2 E3.
    rewrite HB in E1. injection E1 as <-. rewrite HT in E2. injection E2 as <-. rewrite HS in E3. injection E3 as <-. split; auto. rewrite HE. lia. }
  split; [|exact HPan]. split.
  - intros (p & s' & Hr & _). destruct (Z.lt_ge_cases ((H0 + 2 ^ 226 - T) mod modulus) (2 ^ 225)) as [K|K]; auto. exfalso.
    assert (C : fst (run true (stage_pow h) s) = Panic) by (apply HPan; lia). rewrite Hr in C. discriminate C.
  - intros HC. destruct (hwp_run (stage_pow h) s (fun rho p => fst (fst p) = b /\ is_an rho (snd (fst p)) T /\ is_an rho (snd p) (fmk H0)) G) as (p & s' & Hr & Hg & HA & HQ).
    { intros rho Hag one. apply pow_hwp; auto. rewrite HE. lia. }
    exists p, s'. split; [exact Hr|]. split; [exact Hg|]. split; apply (is_an_at s); auto; intros rho Ha; apply (HQ rho Ha).
Qed.
Theorem top_pow_never h s : good s -> header_ok h -> 2 ^ 228 <= modulus -> digest_int (sha256d (words_bits h)) < 2 ^ 255 ->
  digest_int (sha256d (words_bits h)) < modulus - 2 ^ 226 -> fst (run true (stage_pow h) s) = Panic.
Proof.
  intros G H HP HH HB. assert (HN : (225 < NUM_BITS)%nat) by (apply num_bits_above; change (Z.of_nat 225) with 225; lia).
  pose proof (digest_top (sha256d (words_bits h)) (sha256_length _)) as [_ [HL _]].
  set (H0 := digest_int (sha256d (words_bits h))) in *.
  apply (owp_result _ s (fun r => r = Panic) G). intros rho Hag one. apply pow_panics; auto. intros b T v E1 E2 E3.
  assert (RT : 0 <= T < 2 ^ 128) by (apply (decoded_range h); auto; [lia|]; unfold decode_target; rewrite E1; exact E2).
  split; [split; lia|]. unfold digest_scalar in E3. fold H0 in E3. replace (H0 <? 2 ^ 255) with true in E3 by lia. injection E3 as <-.
  unfold pow_ok. replace (fsub (fadd (fmk H0) (fmk (2 ^ 226))) T) with (H0 + 2 ^ 226 - T); [lia|].
  symmetry. apply canon_eqp; [apply fsub_canon|split; lia|]. unfold fsub, fadd. rewrite !eqp_fmk. reflexivity.
Qed.
End HeaderP.
