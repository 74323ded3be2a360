(** Words of 32 bits in the gadget: rotations, bitwise functions, packed sums. *)
From Coq Require Import ZArith Bool List Lia Setoid Morphisms ZifyBool ZifyNat.
From Verif.Model Require Import Base Sha256 CS Bellpepper Util Poly Bignat ShaGadget.
From Verif.Spec Require Import Spec SpecSha.
From Verif.Proofs Require Import Field Arith Convert Limbs Wp Lc BitNum PolyP BoolP Ewp ShaBits ShaP.
Import ListNotations.
Local Open Scope Z_scope.

Lemma below32 x : 0 <= x -> (forall i, 32 <= i -> Z.testbit x i = false) -> x < 2 ^ 32.
Proof.
  intros H0 H. enough (x = x mod 2 ^ 32) as -> by (apply Z.mod_pos_bound; lia).
  apply Z.bits_inj'. intros i Hi. destruct (Z_lt_le_dec i 32).
  - now rewrite Z.mod_pow2_bits_low by lia.
  - rewrite Z.mod_pow2_bits_high by lia. auto.
Qed.

Lemma rotr_range n x : 0 <= n -> 0 <= x < 2 ^ 32 -> 0 <= rotr n x < 2 ^ 32.
Proof.
  intros Hn Hx. unfold rotr.
  assert (0 <= Z.lor (Z.shiftr x n) (w32 (Z.shiftl x (32 - n)))).
  { apply Z.lor_nonneg. split; [apply Z.shiftr_nonneg; lia|]. unfold w32. apply Z.mod_pos_bound. lia. }
  split; auto. apply below32; auto. intros i Hi. rewrite Z.lor_spec, w32_high by lia.
  rewrite Z.shiftr_spec by lia. now rewrite above by lia.
Qed.
Lemma rotr_bit n x i : (0 < n < 32)%nat -> 0 <= x < 2 ^ 32 -> (i < 32)%nat ->
  Z.testbit (rotr (Z.of_nat n) x) (Z.of_nat i) = Z.testbit x (Z.of_nat (if (i + n <? 32)%nat then i + n else i + n - 32)).
Proof.
  intros Hn Hx Hi. unfold rotr. rewrite Z.lor_spec, w32_bit, Z.shiftr_spec, Z.shiftl_spec by lia.
  destruct (Nat.ltb_spec (i + n) 32).
  - rewrite (Z.testbit_neg_r x (Z.of_nat i - _)) by lia. rewrite orb_false_r. f_equal. lia.
  - rewrite above by lia. cbn [orb]. f_equal. lia.
Qed.
Lemma shr_range n x : 0 <= n -> 0 <= x < 2 ^ 32 -> 0 <= shr32 n x < 2 ^ 32.
Proof.
  intros Hn Hx. unfold shr32. assert (0 <= Z.shiftr x n) by (apply Z.shiftr_nonneg; lia). split; auto.
  apply below32; auto. intros i Hi. rewrite Z.shiftr_spec by lia. now rewrite above by lia.
Qed.
Lemma lxor_range x y : 0 <= x < 2 ^ 32 -> 0 <= y < 2 ^ 32 -> 0 <= Z.lxor x y < 2 ^ 32.
Proof.
  intros Hx Hy. assert (0 <= Z.lxor x y) by (apply Z.lxor_nonneg; lia). split; auto.
  apply below32; auto. intros i Hi. rewrite Z.lxor_spec. now rewrite !above by lia.
Qed.
Lemma land_range x y : 0 <= y < 2 ^ 32 -> 0 <= Z.land x y < 2 ^ 32.
Proof.
  intros Hy. assert (0 <= Z.land x y) by (apply Z.land_nonneg; lia). split; auto.
  apply below32; auto. intros i Hi. rewrite Z.land_spec. rewrite (above y) by lia. apply andb_false_r.
Qed.
Lemma Ch_range x y z : 0 <= y < 2 ^ 32 -> 0 <= z < 2 ^ 32 -> 0 <= Ch x y z < 2 ^ 32.
Proof. intros. apply lxor_range; now apply land_range. Qed.
Lemma Maj_range x y z : 0 <= y < 2 ^ 32 -> 0 <= z < 2 ^ 32 -> 0 <= Maj x y z < 2 ^ 32.
Proof. intros. repeat apply lxor_range; now apply land_range. Qed.
Lemma Ch_bit x y z i : 0 <= x < 2 ^ 32 -> 0 <= i < 32 -> Z.testbit (Ch x y z) i = ch_bit (Z.testbit x i) (Z.testbit y i) (Z.testbit z i).
Proof. intros Hx Hi. unfold Ch, ch_bit. now rewrite Z.lxor_spec, !Z.land_spec, not32_bit. Qed.
Lemma Maj_bit x y z i : Z.testbit (Maj x y z) i = maj_bit (Z.testbit x i) (Z.testbit y i) (Z.testbit z i).
Proof. unfold Maj, maj_bit. now rewrite !Z.lxor_spec, !Z.land_spec. Qed.
Lemma w32_range x : 0 <= w32 x < 2 ^ 32.
Proof. unfold w32. apply Z.mod_pos_bound. lia. Qed.
Lemma bits_inj32 x y : 0 <= x < 2 ^ 32 -> 0 <= y < 2 ^ 32 ->
  (forall i, (i < 32)%nat -> Z.testbit x (Z.of_nat i) = Z.testbit y (Z.of_nat i)) -> x = y.
Proof.
  intros Hx Hy H. apply Z.bits_inj'. intros i Hi. destruct (Z_lt_le_dec i 32).
  - rewrite <- (Z2Nat.id i) by lia. apply H. lia.
  - now rewrite !above by lia.
Qed.

Notation bF := (BConst false).

(** [P] holds of each bit and the corresponding bit of [x]. *)
Definition wd (P : Boolean -> bool -> Prop) (bits : list Boolean) (x : Z) : Prop :=
  length bits = 32%nat /\ 0 <= x < 2 ^ 32 /\
  forall i, (i < 32)%nat -> P (nth i bits bF) (Z.testbit x (Z.of_nat i)).

Lemma wd_impl (P Q : Boolean -> bool -> Prop) bits x : (forall b v, P b v -> Q b v) -> wd P bits x -> wd Q bits x.
Proof. intros H (H1 & H2 & H3). repeat split; auto; lia. Qed.
Lemma wd_rotr P n bits x : (0 < n < 32)%nat -> wd P bits x ->
  wd P (firstn 32 (skipn n bits ++ bits)) (rotr (Z.of_nat n) x).
Proof.
  intros Hn (L & Hx & H). split; [|split; [apply rotr_range; lia|]].
  - rewrite firstn_length, app_length, skipn_length. lia.
  - intros i Hi. rewrite rotr_bit, firstn_nth by lia. destruct (Nat.ltb_spec (i + n) 32).
    + rewrite app_nth1 by (rewrite skipn_length; lia). rewrite skipn_nth, Nat.add_comm. apply H. lia.
    + rewrite app_nth2 by (rewrite skipn_length; lia). rewrite skipn_length, L.
      replace (i - (32 - n))%nat with (i + n - 32)%nat by lia. apply H. lia.
Qed.
Lemma wd_shr (P : Boolean -> bool -> Prop) n bits x : P bF false -> (n < 32)%nat -> wd P bits x ->
  wd P (firstn 32 (skipn n bits ++ repeat bF n)) (shr32 (Z.of_nat n) x).
Proof.
  intros H0 Hn (L & Hx & H). split; [|split; [apply shr_range; lia|]].
  - rewrite firstn_length, app_length, skipn_length, repeat_length. lia.
  - intros i Hi. unfold shr32. rewrite Z.shiftr_spec, firstn_nth by lia. destruct (Nat.lt_ge_cases (i + n) 32).
    + rewrite app_nth1 by (rewrite skipn_length; lia). rewrite skipn_nth, <- Nat2Z.inj_add, Nat.add_comm. apply H. lia.
    + rewrite app_nth2 by (rewrite skipn_length; lia). rewrite nth_repeat, above by lia. exact H0.
Qed.
Lemma constant_nth v i : (i < 32)%nat -> nth i (u_bits (u_constant v)) bF = BConst (Z.testbit v (Z.of_nat i)).
Proof.
  intros Hi. cbn [u_constant u_bits]. rewrite (nth_indep _ bF (BConst (Z.testbit v (Z.of_nat 0)))) by (rewrite map_length, seq_length; lia).
  rewrite (map_nth (fun i => BConst (Z.testbit v (Z.of_nat i)))). now rewrite seq_nth by lia.
Qed.
Lemma wd_const (P : Boolean -> bool -> Prop) v : (forall c, P (BConst c) c) -> 0 <= v < 2 ^ 32 -> wd P (u_bits (u_constant v)) v.
Proof. intros H Hv. split; [reflexivity|]. split; auto. intros i Hi. rewrite constant_nth by auto. apply H. Qed.

(** ** Zipping *)
Lemma zip_in a b p : length a = 32%nat -> length b = 32%nat ->
  In p (combine (seq 0 (length a)) (combine a b)) ->
  (fst p < 32)%nat /\ fst (snd p) = nth (fst p) a bF /\ snd (snd p) = nth (fst p) b bF.
Proof.
  intros La Lb Hp. apply (In_nth _ _ (0%nat, (bF, bF))) in Hp. destruct Hp as (i & Hi & Hp).
  rewrite combine_length, seq_length, combine_length in Hi.
  rewrite combine_nth in Hp by (rewrite seq_length, combine_length; lia). rewrite seq_nth in Hp by lia.
  rewrite combine_nth in Hp by lia. subst p. cbn [fst snd plus]. split; [lia|auto].
Qed.
Lemma zip_out {T} (Q : nat -> T -> Prop) {B} (m : list B) l d n : length m = n -> Forall2 (fun p r => Q (fst p) r) (combine (seq 0 n) m) l ->
  length l = n /\ forall i, (i < n)%nat -> Q i (nth i l d).
Proof.
  intros Lm H. assert (G : forall k (m : list B) l n, length m = n -> Forall2 (fun p r => Q (fst p) r) (combine (seq k n) m) l ->
     length l = n /\ forall i, (i < n)%nat -> Q (k + i)%nat (nth i l d)).
  { clear. intros k m. revert k. induction m as [|b m IH]; intros k l n Lm H; cbn [length] in Lm; subst n.
    - inversion H; subst. split; auto. intros; lia.
    - cbn [length seq combine] in H. inversion H; subst. apply (IH (S k)) in H4; auto. destruct H4 as [L4 H4].
      split; [cbn; lia|]. intros [|i] Hi; cbn [nth]; [now rewrite Nat.add_0_r|].
      replace (k + S i)%nat with (S k + i)%nat by lia. apply H4. lia. }
  apply (G 0%nat m l n Lm H).
Qed.
Lemma zip3_in a b c p : length a = 32%nat -> length b = 32%nat -> length c = 32%nat ->
  In p (combine (seq 0 (length a)) (combine a (combine b c))) ->
  (fst p < 32)%nat /\ fst (snd p) = nth (fst p) a bF /\ fst (snd (snd p)) = nth (fst p) b bF /\ snd (snd (snd p)) = nth (fst p) c bF.
Proof.
  intros La Lb Lc Hp. apply (In_nth _ _ (0%nat, (bF, (bF, bF)))) in Hp. destruct Hp as (i & Hi & Hp).
  rewrite combine_length, seq_length, !combine_length in Hi.
  rewrite combine_nth in Hp by (rewrite seq_length, !combine_length; lia). rewrite seq_nth in Hp by lia.
  rewrite combine_nth in Hp by (rewrite combine_length; lia). rewrite combine_nth in Hp by lia. subst p. cbn [fst snd plus]. split; [lia|auto].
Qed.

Section ShaWords.
Context {E : Env} {W : Wf E}.

Lemma zip_rwp (P : Boolean -> bool -> Prop) f (g : bool -> bool -> bool) nm a b x y z : (forall a b x y, P a x -> P b y -> rwp (f a b) (fun r => P r (g x y))) ->
  0 <= z < 2 ^ 32 -> (forall i, 0 <= i < 32 -> Z.testbit z i = g (Z.testbit x i) (Z.testbit y i)) ->
  wd P a x -> wd P b y -> rwp (zip_bits nm f a b) (fun r => wd P r z).
Proof.
  intros Hf Hz Hb (La & Hx & Ha) (Lb & Hy & Hb'). unfold zip_bits.
  apply rwp_mapM with (R := fun p r => P r (Z.testbit z (Z.of_nat (fst p)))).
  - intros p Hp. apply zip_in in Hp; auto. destruct Hp as (Hi & -> & ->). apply rwp_ns. rewrite Hb by lia. auto.
  - intros r Hr. rewrite La in Hr. apply (zip_out (fun i r => P r (Z.testbit z (Z.of_nat i))) _ _ bF) in Hr; [|rewrite combine_length; lia].
    split; [|split]; tauto.
Qed.
Lemma zip3_rwp (P : Boolean -> bool -> Prop) f (g : bool -> bool -> bool -> bool) nm a b c x y u z : (forall a b c x y z, P a x -> P b y -> P c z -> rwp (f a b c) (fun r => P r (g x y z))) ->
  0 <= z < 2 ^ 32 -> (forall i, 0 <= i < 32 -> Z.testbit z i = g (Z.testbit x i) (Z.testbit y i) (Z.testbit u i)) ->
  wd P a x -> wd P b y -> wd P c u -> rwp (zip3_bits nm f a b c) (fun r => wd P r z).
Proof.
  intros Hf Hz Hb (La & Hx & Ha) (Lb & Hy & Hb') (Lc & Hu & Hc). unfold zip3_bits.
  apply rwp_mapM with (R := fun p r => P r (Z.testbit z (Z.of_nat (fst p)))).
  - intros p Hp. apply zip3_in in Hp; auto. destruct Hp as (Hi & -> & -> & ->). apply rwp_ns. rewrite Hb by lia. auto.
  - intros r Hr. rewrite La in Hr. apply (zip_out (fun i r => P r (Z.testbit z (Z.of_nat i))) _ _ bF) in Hr; [|rewrite !combine_length; lia].
    split; [|split]; tauto.
Qed.
Lemma zip_swp rho (P : Boolean -> bool -> Prop) f (g : bool -> bool -> bool) nm a b x y z : (forall a b x y, P a x -> P b y -> swp Any rho (f a b) (fun r => P r (g x y))) ->
  0 <= z < 2 ^ 32 -> (forall i, 0 <= i < 32 -> Z.testbit z i = g (Z.testbit x i) (Z.testbit y i)) ->
  wd P a x -> wd P b y -> swp Any rho (zip_bits nm f a b) (fun r => wd P r z).
Proof.
  intros Hf Hz Hb (La & Hx & Ha) (Lb & Hy & Hb'). unfold zip_bits.
  apply swp_mapM with (R := fun p r => P r (Z.testbit z (Z.of_nat (fst p)))).
  - intros p Hp. apply zip_in in Hp; auto. destruct Hp as (Hi & -> & ->). apply swp_ns. rewrite Hb by lia. auto.
  - intros r Hr. rewrite La in Hr. apply (zip_out (fun i r => P r (Z.testbit z (Z.of_nat i))) _ _ bF) in Hr; [|rewrite combine_length; lia].
    split; [|split]; tauto.
Qed.
Lemma zip3_swp rho (P : Boolean -> bool -> Prop) f (g : bool -> bool -> bool -> bool) nm a b c x y u z : (forall a b c x y z, P a x -> P b y -> P c z -> swp Any rho (f a b c) (fun r => P r (g x y z))) ->
  0 <= z < 2 ^ 32 -> (forall i, 0 <= i < 32 -> Z.testbit z i = g (Z.testbit x i) (Z.testbit y i) (Z.testbit u i)) ->
  wd P a x -> wd P b y -> wd P c u -> swp Any rho (zip3_bits nm f a b c) (fun r => wd P r z).
Proof.
  intros Hf Hz Hb (La & Hx & Ha) (Lb & Hy & Hb') (Lc & Hu & Hc). unfold zip3_bits.
  apply swp_mapM with (R := fun p r => P r (Z.testbit z (Z.of_nat (fst p)))).
  - intros p Hp. apply zip3_in in Hp; auto. destruct Hp as (Hi & -> & -> & ->). apply swp_ns. rewrite Hb by lia. auto.
  - intros r Hr. rewrite La in Hr. apply (zip_out (fun i r => P r (Z.testbit z (Z.of_nat i))) _ _ bF) in Hr; [|rewrite !combine_length; lia].
    split; [|split]; tauto.
Qed.
Lemma zip_ewp md f (g : bool -> bool -> bool) nm R a b x y z :
  (forall R a b x y, ones R -> eb md R a x -> eb md R b y -> ewp md R (f a b) (fun R' r => eb md R' r (g x y))) ->
  0 <= z < 2 ^ 32 -> (forall i, 0 <= i < 32 -> Z.testbit z i = g (Z.testbit x i) (Z.testbit y i)) -> ones R ->
  wd (eb md R) a x -> wd (eb md R) b y -> ewp md R (zip_bits nm f a b) (fun R' r => wd (eb md R') r z).
Proof.
  intros Hf Hz Hb Ho (La & Hx & Ha) (Lb & Hy & Hb'). unfold zip_bits.
  apply ewp_mapM with (T := fun R p r => eb md R r (Z.testbit z (Z.of_nat (fst p)))).
  - intros R1 R2 p r Hs. now apply eb_sub.
  - intros p R' Hp Hs. apply zip_in in Hp; auto. destruct Hp as (Hi & -> & ->). apply ewp_ns. rewrite Hb by lia.
    apply Hf; eauto using eb_sub, ones_sub.
  - intros R' r Hs Hr. rewrite La in Hr. apply (zip_out (fun i r => eb md R' r (Z.testbit z (Z.of_nat i))) _ _ bF) in Hr; [|rewrite combine_length; lia].
    split; [|split]; tauto.
Qed.
Lemma zip3_ewp md f (g : bool -> bool -> bool -> bool) nm R a b c x y u z :
  (forall R a b c x y z, ones R -> eb md R a x -> eb md R b y -> eb md R c z -> ewp md R (f a b c) (fun R' r => eb md R' r (g x y z))) ->
  0 <= z < 2 ^ 32 -> (forall i, 0 <= i < 32 -> Z.testbit z i = g (Z.testbit x i) (Z.testbit y i) (Z.testbit u i)) -> ones R ->
  wd (eb md R) a x -> wd (eb md R) b y -> wd (eb md R) c u -> ewp md R (zip3_bits nm f a b c) (fun R' r => wd (eb md R') r z).
Proof.
  intros Hf Hz Hb Ho (La & Hx & Ha) (Lb & Hy & Hb') (Lc & Hu & Hc). unfold zip3_bits.
  apply ewp_mapM with (T := fun R p r => eb md R r (Z.testbit z (Z.of_nat (fst p)))).
  - intros R1 R2 p r Hs. now apply eb_sub.
  - intros p R' Hp Hs. apply zip3_in in Hp; auto. destruct Hp as (Hi & -> & -> & ->). apply ewp_ns. rewrite Hb by lia.
    apply Hf; eauto using eb_sub, ones_sub.
  - intros R' r Hs Hr. rewrite La in Hr. apply (zip_out (fun i r => eb md R' r (Z.testbit z (Z.of_nat i))) _ _ bF) in Hr; [|rewrite !combine_length; lia].
    split; [|split]; tauto.
Qed.

(** ** Recorded values and constant bits *)
Definition agr (u : u32) : Prop := length (u_bits u) = 32%nat /\ forall v, u_val u = Some v -> wd agrees (u_bits u) v.

Lemma agr_const v : 0 <= v < 2 ^ 32 -> agr (u_constant v).
Proof. intros Hv. split; [reflexivity|]. intros w Hw. injection Hw as <-. apply wd_const; simpl; auto. Qed.
Lemma agr_rotr n u : (0 < n < 32)%nat -> agr u -> agr (u_rotr n u).
Proof.
  intros Hn [L H]. split.
  - cbn [u_rotr u_bits]. rewrite firstn_length, app_length, skipn_length. lia.
  - intros v Hv. cbn [u_rotr u_val u_bits] in *. destruct (u_val u) as [w|]; [|discriminate]. injection Hv as <-. apply wd_rotr; auto.
Qed.
Lemma agr_shr n u : (n < 32)%nat -> agr u -> agr (u_shr n u).
Proof.
  intros Hn [L H]. split.
  - cbn [u_shr u_bits]. rewrite firstn_length, app_length, skipn_length, repeat_length. lia.
  - intros v Hv. cbn [u_shr u_val u_bits] in *. destruct (u_val u) as [w|]; [|discriminate]. injection Hv as <-. apply wd_shr; simpl; auto.
Qed.
Lemma zip_len nm f a b : length a = 32%nat -> length b = 32%nat -> rwp (zip_bits nm f a b) (fun r => length r = 32%nat).
Proof.
  intros La Lb. unfold zip_bits. apply rwp_mapM with (R := fun p r => True).
  - intros p _. apply rwp_ns. generalize (f (fst (snd p)) (snd (snd p))). intros m. induction m; simpl; auto.
  - intros r Hr. apply Forall2_length in Hr. rewrite combine_length, seq_length, combine_length in Hr. lia.
Qed.
Lemma zip3_len nm f a b c : length a = 32%nat -> length b = 32%nat -> length c = 32%nat -> rwp (zip3_bits nm f a b c) (fun r => length r = 32%nat).
Proof.
  intros La Lb Lc. unfold zip3_bits. apply rwp_mapM with (R := fun p r => True).
  - intros p _. apply rwp_ns. generalize (f (fst (snd p)) (fst (snd (snd p))) (snd (snd (snd p)))). intros m. induction m; simpl; auto.
  - intros r Hr. apply Forall2_length in Hr. rewrite combine_length, seq_length, !combine_length in Hr. lia.
Qed.
Lemma agr_xor a b : agr a -> agr b -> rwp (u_xor a b) agr.
Proof.
  intros [La Ha] [Lb Hb]. unfold u_xor. apply rwp_bind.
  destruct (u_val a) as [x|] eqn:Ea; [destruct (u_val b) as [y|] eqn:Eb|].
  - pose proof (Ha x eq_refl) as Wa. pose proof (Hb y eq_refl) as Wb.
    eapply rwp_mono; [apply (zip_rwp agrees bool_xor xorb) with (x := x) (y := y) (z := Z.lxor x y); auto using xor_rwp|].
    + apply lxor_range; [apply Wa|apply Wb].
    + intros i _. apply Z.lxor_spec.
    + intros r Hr. cbn [rwp]. split; [apply Hr|]. intros v Hv. injection Hv as <-. exact Hr.
  - eapply rwp_mono; [apply zip_len; auto|]. intros r Hr. split; [exact Hr|]. intros v Hv. discriminate.
  - eapply rwp_mono; [apply zip_len; auto|]. intros r Hr. split; [exact Hr|]. intros v Hv. discriminate.
Qed.
Lemma agr_triop nm f g h a b c :
  (forall a b c x y z, agrees a x -> agrees b y -> agrees c z -> rwp (f a b c) (fun r => agrees r (g x y z))) ->
  (forall x y z, 0 <= x < 2 ^ 32 -> 0 <= y < 2 ^ 32 -> 0 <= z < 2 ^ 32 -> 0 <= h x y z < 2 ^ 32 /\
     forall i, 0 <= i < 32 -> Z.testbit (h x y z) i = g (Z.testbit x i) (Z.testbit y i) (Z.testbit z i)) ->
  agr a -> agr b -> agr c -> rwp (u_triop nm f h a b c) agr.
Proof.
  intros Hf Hh [La Ha] [Lb Hb] [Lc Hc]. unfold u_triop. apply rwp_bind.
  assert (D : rwp (zip3_bits nm f (u_bits a) (u_bits b) (u_bits c)) (fun r => agr (mkU32 r None))).
  { eapply rwp_mono; [apply zip3_len; auto|]. intros r Hr. split; [exact Hr|]. intros v Hv. discriminate. }
  destruct (u_val a) as [x|] eqn:Ea; [|exact D]. destruct (u_val b) as [y|] eqn:Eb; [|exact D]. destruct (u_val c) as [z|] eqn:Ec; [|exact D].
  pose proof (Ha x eq_refl) as Wa. pose proof (Hb y eq_refl) as Wb. pose proof (Hc z eq_refl) as Wc.
  destruct (Hh x y z) as [H1 H2]; [apply Wa|apply Wb|apply Wc|].
  eapply rwp_mono; [apply (zip3_rwp agrees f g) with (x := x) (y := y) (u := z) (z := h x y z); auto|].
  intros r Hr. cbn [rwp]. split; [apply Hr|]. intros v Hv. injection Hv as <-. exact Hr.
Qed.
Lemma Ch_spec x y z : 0 <= x < 2 ^ 32 -> 0 <= y < 2 ^ 32 -> 0 <= z < 2 ^ 32 -> 0 <= Ch x y z < 2 ^ 32 /\
     forall i, 0 <= i < 32 -> Z.testbit (Ch x y z) i = ch_bit (Z.testbit x i) (Z.testbit y i) (Z.testbit z i).
Proof. intros. split; [now apply Ch_range|]. intros. now apply Ch_bit. Qed.
Lemma Maj_spec x y z : 0 <= x < 2 ^ 32 -> 0 <= y < 2 ^ 32 -> 0 <= z < 2 ^ 32 -> 0 <= Maj x y z < 2 ^ 32 /\
     forall i, 0 <= i < 32 -> Z.testbit (Maj x y z) i = maj_bit (Z.testbit x i) (Z.testbit y i) (Z.testbit z i).
Proof. intros. split; [now apply Maj_range|]. intros. now apply Maj_bit. Qed.
Lemma agr_ch a b c : agr a -> agr b -> agr c -> rwp (u_ch a b c) agr.
Proof. apply agr_triop with (g := ch_bit); [apply ch_rwp|apply Ch_spec]. Qed.
Lemma agr_maj a b c : agr a -> agr b -> agr c -> rwp (u_maj a b c) agr.
Proof. apply agr_triop with (g := maj_bit); [apply maj_rwp|apply Maj_spec]. Qed.

(** ** Weighted sums of bits *)
Section Rho.
Context (rho : assignment) (one : rho ONE = 1).

Lemma weighted_value bits bs : Forall2 (wire_bool rho) bits bs -> eqp (lc_eval rho (weighted bits)) (bits_value bs).
Proof.
  intros H. unfold weighted.
  assert (G : forall k, eqp (lc_eval rho (flat_map (fun p => bool_lc (snd p) (2 ^ Z.of_nat (fst p))) (combine (seq k (length bits)) bits))) (2 ^ Z.of_nat k * bits_value bs)).
  { induction H as [|b v bits bs Hb H IH]; intros k.
    - cbn. rewrite Z.mul_0_r. reflexivity.
    - cbn [length seq combine flat_map fst snd]. rewrite lc_eval_app, (IH (S k)), bool_lc_scale.
      unfold wire_bool, wire_bit in Hb. rewrite Hb, bits_value_cons.
      rewrite Nat2Z.inj_succ, Z.pow_succ_r by lia. ering. }
  rewrite (G 0%nat). change (2 ^ Z.of_nat 0) with 1. ering.
Qed.
Lemma word_value bits x : wd (wire_bool rho) bits x -> eqp (lc_eval rho (weighted bits)) x.
Proof.
  intros (L & Hx & H). rewrite (weighted_value bits (map (fun i => Z.testbit x (Z.of_nat i)) (seq 0 32))).
  - rewrite testbits_value_0 by lia. rewrite Z.mod_small by (simpl; lia). reflexivity.
  - rewrite <- (HashP.seq_nth_map bF bits 0), L. clear L. 
    assert (G : forall l, (forall i, In i l -> (i < 32)%nat) -> Forall2 (wire_bool rho) (map (fun i => nth (i - 0) bits bF) l) (map (fun i => Z.testbit x (Z.of_nat i)) l)).
    { induction l as [|i l IH]; intros Hl; constructor; [|apply IH; intros; apply Hl; now right].
      rewrite Nat.sub_0_r. apply H, Hl. now left. }
    apply G. intros i Hi. apply in_seq in Hi. lia.
Qed.
Lemma sum_value us xs : Forall2 (fun u x => wd (wire_bool rho) (u_bits u) x) us xs ->
  eqp (lc_eval rho (flat_map (fun u => weighted (u_bits u)) us)) (fold_right Z.add 0 xs).
Proof.
  intros H. induction H as [|u x us xs Hu H IH]; [reflexivity|].
  cbn [flat_map fold_right]. rewrite lc_eval_app, IH, (word_value _ _ Hu). reflexivity.
Qed.
End Rho.

Lemma sum_range (us : list u32) xs : Forall2 (fun _ x => 0 <= x < 2 ^ 32) us xs ->
  0 <= fold_right Z.add 0 xs <= Z.of_nat (length us) * 4294967295.
Proof. intros H. induction H; cbn [fold_right length]; lia. Qed.
Lemma sum_width n s : (0 < n)%nat -> 0 <= s <= Z.of_nat n * 4294967295 ->
  0 <= s < 2 ^ Z.of_nat (Z.to_nat (Z.log2 (Z.of_nat n * 4294967295) + 1)).
Proof.
  intros Hn Hs. split; [lia|]. pose proof (Z.log2_spec (Z.of_nat n * 4294967295) ltac:(lia)) as L.
  pose proof (Z.log2_nonneg (Z.of_nat n * 4294967295)). rewrite Z2Nat.id by lia. unfold Z.succ in L. lia.
Qed.
Lemma width_range n : (2 <= n <= 10)%nat -> (32 <= Z.to_nat (Z.log2 (Z.of_nat n * 4294967295) + 1) <= 36)%nat.
Proof. intros H. do 2 (destruct n as [|n]; [lia|]). do 9 (destruct n as [|n]; [vm_compute; split; repeat constructor|]). lia. Qed.
Lemma capacity_bound n : (n < CAPACITY)%nat -> 2 ^ Z.of_nat n < modulus.
Proof.
  intros H. unfold CAPACITY, NUM_BITS in H. cbn [Nat.pred] in H. pose proof wf_two as H2.
  assert (Hp : 0 < modulus) by lia. pose proof (Z.log2_spec modulus Hp) as [L _]. pose proof (Z.log2_nonneg modulus).
  assert (2 ^ Z.of_nat n < 2 ^ Z.log2 modulus) by (apply Z.pow_lt_mono_r; lia). lia.
Qed.

(** A word all of whose bits are constant is worth what is recorded for it. *)
Lemma constant_value u v x (P : Boolean -> bool -> Prop) : (forall c y, P (BConst c) y -> c = y) ->
  forallb is_constant (u_bits u) = true -> agr u -> u_val u = Some v -> wd P (u_bits u) x -> v = x.
Proof.
  intros HP Hc [L Ha] Hv (_ & Hx & H). specialize (Ha v Hv). destruct Ha as (_ & Hv' & Ha).
  apply bits_inj32; auto. intros i Hi. specialize (H i Hi). specialize (Ha i Hi).
  rewrite forallb_forall in Hc. specialize (Hc (nth i (u_bits u) bF)).
  assert (Hin : In (nth i (u_bits u) bF) (u_bits u)) by (apply nth_In; lia). specialize (Hc Hin).
  destruct (nth i (u_bits u) bF) as [p|p|c]; try discriminate. simpl in Ha. apply HP in H. congruence.
Qed.
Lemma constants_value us vs xs (P : Boolean -> bool -> Prop) : (forall c y, P (BConst c) y -> c = y) ->
  forallb (fun u => forallb is_constant (u_bits u)) us = true -> Forall agr us -> all_some (map u_val us) = Some vs ->
  Forall2 (fun u x => wd P (u_bits u) x) us xs -> vs = xs.
Proof.
  intros HP Hc Ha Hv H. revert vs Hv. induction H as [|u x us xs Hu H IH]; intros vs Hv.
  - cbn in Hv. congruence.
  - cbn [forallb] in Hc. apply andb_true_iff in Hc. destruct Hc as [Hc1 Hc2]. inversion Ha; subst.
    cbn [map all_some fold_right] in Hv. fold (all_some (map u_val us)) in Hv.
    destruct (u_val u) as [v|] eqn:Ev; [|destruct (all_some (map u_val us)); discriminate].
    destruct (all_some (map u_val us)) as [l|]; [|discriminate]. injection Hv as <-. f_equal; auto.
    eapply constant_value; eauto.
Qed.
End ShaWords.
