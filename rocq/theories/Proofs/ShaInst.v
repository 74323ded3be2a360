(** The hash gadget: satisfied constraints force the digest; a prover can always reach it. *)
From Coq Require Import ZArith Bool List Lia.
From Verif.Model Require Import Base Sha256 CS Bellpepper Util Poly Bignat ShaGadget.
From Verif.Spec Require Import Spec SpecSha.
From Verif.Proofs Require Import Field Arith Convert Limbs Wp Lc BitNum PolyP BoolP Ewp ShaBits ShaP ShaWords ShaAdd ShaLogic.
Import ListNotations.
Local Open Scope Z_scope.

Section ShaInst.
Context {E : Env} {W : Wf E}.

(** ** Words and big-endian bits *)
Lemma F2_rev {A B} (R : A -> B -> Prop) l l' : Forall2 R l l' -> Forall2 R (rev l) (rev l').
Proof. intros H. induction H; cbn [rev]; [constructor|]. apply Forall2_app; auto. Qed.
Lemma F2_at {A B} (R : A -> B -> Prop) l l' d d' i : Forall2 R l l' -> (i < length l)%nat -> R (nth i l d) (nth i l' d').
Proof. intros H. revert i. induction H; intros i Hi; [cbn in Hi; lia|]. destruct i; cbn [nth]; auto. apply IHForall2. cbn in Hi. lia. Qed.
Lemma wd_from (P : Boolean -> bool -> Prop) bits vs : length bits = 32%nat -> Forall2 P bits vs -> wd P (rev bits) (bits_to_Z vs).
Proof.
  intros L H. pose proof (Forall2_length _ _ _ H) as Lv. rewrite bits_to_Z_num. split; [now rewrite rev_length|].
  split; [pose proof (num_bound vs) as B; rewrite <- Lv, L in B; exact B|].
  intros i Hi. unfold num_of. rewrite bits_value_bit, Nat2Z.id by lia. apply F2_at; [now apply F2_rev|]. rewrite rev_length. lia.
Qed.
Lemma all_some_F2 bits vs : all_some (map bool_val bits) = Some vs -> Forall2 (fun b x => bool_val b = Some x) bits vs.
Proof.
  revert vs. induction bits as [|b bits IH]; intros vs H; cbn [map all_some fold_right] in H.
  - injection H as <-. constructor.
  - fold (all_some (map bool_val bits)) in H. destruct (all_some (map bool_val bits)) as [ws|] eqn:Ea.
    + destruct (bool_val b) eqn:Eb; [|discriminate]. injection H as <-. constructor; auto.
    + destruct (bool_val b); discriminate.
Qed.
Lemma F2_all_some bits vs : Forall2 (fun b x => bool_val b = Some x) bits vs -> all_some (map bool_val bits) = Some vs.
Proof.
  intros H. induction H as [|b x bits vs Hb H IH]; auto. cbn [map all_some fold_right]. fold (all_some (map bool_val bits)). now rewrite IH, Hb.
Qed.
Lemma agr_from bits : length bits = 32%nat -> agr (mkU32 (rev bits) (option_map bits_to_Z (all_some (map bool_val bits)))).
Proof.
  intros L. split; cbn [u_bits u_val]; [now rewrite rev_length|]. intros v Hv.
  destruct (all_some (map bool_val bits)) as [vs|] eqn:Ea; [|discriminate]. injection Hv as <-. apply wd_from; auto.
  apply all_some_F2 in Ea. clear -Ea. induction Ea; constructor; auto. destruct x; cbn in *; auto. congruence.
Qed.
Lemma wd_out (P : Boolean -> bool -> Prop) bits x : wd P bits x -> Forall2 P (rev bits) (Z_to_bits 32 x).
Proof.
  intros (L & _ & H).
  assert (G : forall n bits, length bits = n -> (forall i, (i < n)%nat -> P (nth i bits bF) (Z.testbit x (Z.of_nat i))) -> Forall2 P (rev bits) (Z_to_bits n x)).
  { clear. induction n as [|n IH]; intros bits L H.
    - destruct bits; [constructor|discriminate].
    - destruct (exists_last (l := bits)) as (bs & b & ->); [destruct bits; discriminate|].
      rewrite app_length in L. cbn in L. rewrite rev_app_distr. cbn [rev app Z_to_bits]. constructor.
      + specialize (H n ltac:(lia)). rewrite app_nth2 in H by lia. now replace (n - length bs)%nat with 0%nat in H by lia.
      + apply IH; [lia|]. intros i Hi. specialize (H i ltac:(lia)). rewrite app_nth1 in H by lia. exact H. }
  now apply G.
Qed.

(** ** Satisfied constraints *)
Section Rho.
Context (rho : assignment) (one : rho ONE = 1).

Definition swpW (A : Type) (S : Prop) (m : prog A) (Q : Prop -> A -> Prop) : Prop :=
  swp Any rho m (fun a => exists S' : Prop, (S' -> S) /\ Q S' a).
Definition uwS (S : Prop) (u : u32) (x : Z) : Prop := agr u /\ exists y, wd (wire_bool rho) (u_bits u) y /\ (S -> y = x).
Definition qiS (S : Prop) (q : meq) : Prop := packed rho q /\ (settled rho q -> S).

Lemma stay {A} (S : Prop) (m : prog A) (P : A -> Prop) (Q : Prop -> A -> Prop) : swp Any rho m P -> (forall a, P a -> Q S a) -> swpW A S m Q.
Proof. intros H HQ. eapply swp_mono; [exact H|]. intros a Ha. exists S. auto. Qed.

Lemma S_xor (S : Prop) q a b x y : qiS S q -> uwS S a x -> uwS S b y -> swpW _ S (u_xor a b) (fun S' r => qiS S' q /\ uwS S' r (Z.lxor x y)).
Proof.
  intros Hq (Ga & x' & Wa & Ea) (Gb & y' & Wb & Eb).
  eapply stay; [apply swp_rwp; [apply (agr_xor a b); auto|]|].
  - unfold u_xor. apply swp_bind. eapply swp_mono; [apply (zip_swp rho (wire_bool rho) bool_xor xorb) with (x := x') (y := y') (z := Z.lxor x' y'); auto|].
    + intros; now apply xor_swp.
    + apply lxor_range; [apply Wa|apply Wb].
    + intros. apply Z.lxor_spec.
    + intros bits Hb. instantiate (1 := fun r => wd (wire_bool rho) (u_bits r) (Z.lxor x' y')). exact Hb.
  - intros r [H1 H2]. split; [exact Hq|]. split; [exact H1|]. exists (Z.lxor x' y'). split; [exact H2|]. intros HS. now rewrite (Ea HS), (Eb HS).
Qed.
Lemma S_triop (S : Prop) nm f g h q a b c x y z :
  (forall a b c x y z, wire_bool rho a x -> wire_bool rho b y -> wire_bool rho c z -> swp Any rho (f a b c) (fun r => wire_bool rho r (g x y z))) ->
  (forall x y z, 0 <= x < 2 ^ 32 -> 0 <= y < 2 ^ 32 -> 0 <= z < 2 ^ 32 -> 0 <= h x y z < 2 ^ 32 /\
     forall i, 0 <= i < 32 -> Z.testbit (h x y z) i = g (Z.testbit x i) (Z.testbit y i) (Z.testbit z i)) ->
  (agr a -> agr b -> agr c -> rwp (u_triop nm f h a b c) agr) ->
  qiS S q -> uwS S a x -> uwS S b y -> uwS S c z -> swpW _ S (u_triop nm f h a b c) (fun S' r => qiS S' q /\ uwS S' r (h x y z)).
Proof.
  intros Hf Hh Hr Hq (Ga & x' & Wa & Ea) (Gb & y' & Wb & Eb) (Gc & z' & Wc & Ec).
  destruct (Hh x' y' z') as [H1 H2]; [apply Wa|apply Wb|apply Wc|].
  eapply stay; [apply swp_rwp; [apply Hr; auto|]|].
  - unfold u_triop. apply swp_bind. eapply swp_mono; [apply (zip3_swp rho (wire_bool rho) f g) with (x := x') (y := y') (u := z') (z := h x' y' z'); eauto|].
    intros bits Hb. instantiate (1 := fun r => wd (wire_bool rho) (u_bits r) (h x' y' z')). exact Hb.
  - intros r [H3 H4]. split; [exact Hq|]. split; [exact H3|]. exists (h x' y' z'). split; [exact H4|]. intros HS. now rewrite (Ea HS), (Eb HS), (Ec HS).
Qed.
Lemma S_add (S : Prop) q us xs : qiS S q -> Forall2 (uwS S) us xs ->
  swpW _ S (u_addmany q us) (fun S' p => qiS S' (fst p) /\ uwS S' (snd p) (w32 (total xs))).
Proof.
  intros [Hq HS] Hu.
  assert (G : exists ys, Forall2 (fun u y => wd (wire_bool rho) (u_bits u) y) us ys /\ (S -> ys = xs) /\ Forall agr us).
  { clear -Hu. induction Hu as [|u x us xs (G & y & Wu & Eu) H (ys & H1 & H2 & H3)].
    - exists []. auto.
    - exists (y :: ys). split; [constructor; auto|]. split; [|constructor; auto]. intros HS. now rewrite (Eu HS), (H2 HS). }
  destruct G as (ys & Hy & Ey & Ga).
  eapply swp_mono; [apply swp_rwp; [apply add_rwp|apply (add_swp rho one q us ys); auto]|].
  intros p [Gp (Hp & Hs & x & Wx & Ex)]. exists (settled rho (fst p)). split; [auto|]. split; [split; auto|].
  split; [exact Gp|]. exists x. split; [exact Wx|]. intros H. rewrite (Ex H). rewrite Ey; auto.
Qed.

Lemma sha_swp ins vs : (length ins mod 8 = 0)%nat -> Forall2 (wire_bool rho) ins vs ->
  swp Any rho (sha256_r1cs ins) (fun outs => Forall2 (wire_bool rho) outs (sha256 vs)).
Proof.
  intros L8 Hi. assert (HC : (0 < CAPACITY)%nat).
  { pose proof wf_two. unfold CAPACITY, NUM_BITS. cbn [Nat.pred]. assert (1 <= Z.log2 modulus) by (apply Z.log2_le_pow2; lia). lia. }
  pose proof (sha_wp Prop (fun S' S => S' -> S) swpW uwS qiS (fun _ => wire_bool rho) (fun _ => wire_bool rho)) as H.
  eapply swp_mono; [apply (H) with (w := True) (ins := ins) (vs := vs)|]; clear H; auto.
  - intros A S a Q HQ. exists S. auto.
  - intros A B S m f Q H. unfold swpW in *. apply swp_bind. eapply swp_mono; [exact H|]. intros a (S' & H1 & H2). cbv beta in *.
    eapply swp_mono; [exact H2|]. intros b (S2 & H3 & H4). exists S2. auto.
  - intros A S m Q Q' H HQ. eapply swp_mono; [exact H|]. intros a (S' & H1 & H2). exists S'. auto.
  - intros A S nm m Q H. now apply swp_ns.
  - intros S S' u x Hl (G & y & Wy & Ey). split; [exact G|]. exists y. auto.
  - intros S q c _. now apply wire_const.
  - intros; now apply S_xor.
  - intros. apply (S_triop _ _ bool_ch ch_bit Ch); auto; [intros; now apply ch_swp|apply Ch_spec|apply agr_ch].
  - intros. apply (S_triop _ _ bool_maj maj_bit Maj); auto; [intros; now apply maj_swp|apply Maj_spec|apply agr_maj].
  - intros S n u x Hn (G & y & Wy & Ey). split; [now apply agr_rotr|]. exists (rotr (Z.of_nat n) y). split; [now apply wd_rotr|]. intros HS. now rewrite (Ey HS).
  - intros S q n u x Hn _ (G & y & Wy & Ey). split; [now apply agr_shr|]. exists (shr32 (Z.of_nat n) y). split; [apply wd_shr; auto; now apply wire_const|]. intros HS. now rewrite (Ey HS).
  - intros S q v _ Hv. split; [now apply agr_const|]. exists v. split; auto. apply wd_const; auto. intros c. now apply wire_const.
  - intros; now apply S_add.
  - intros S bits ws L H. split; [now apply agr_from|]. exists (bits_to_Z ws). split; auto. now apply wd_from.
  - intros S q [H1 H2]. eapply swp_mono; [now apply mq_drop_swp|]. intros t Hs. exists S. split; auto. split; [now apply packed_zero|auto].
  - intros S u x [_ HS] (G & y & Wy & Ey). rewrite <- Ey; [now apply wd_out|]. apply HS. unfold settled. reflexivity.
  - split; [now apply packed_zero|auto].
  - intros outs (S' & _ & _ & H). exact H.
Qed.
End Rho.

(** ** What a prover achieves *)
Section Known.
Context (md : mode) (HN : (64 <= NUM_BITS)%nat).
Definition uwK (R : known) (u : u32) (x : Z) : Prop := agr u /\ wd (eb md R) (u_bits u) x /\ (md = Honest -> u_val u = Some x).
Definition qiK (R : known) (q : meq) : Prop := ones R /\ balanced R q.
Lemma qiK_sub R R' q : sub R' R -> qiK R q -> qiK R' q.
Proof. intros Hs [H1 H2]. split; [eapply ones_sub; eauto|eapply balanced_sub; eauto]. Qed.

Lemma eb_own R c : ones R -> eb md R (BConst c) c.
Proof. intros Ho. apply eb_intro_const; auto. Qed.
Lemma K_xor R q a b x y : qiK R q -> uwK R a x -> uwK R b y -> ewp md R (u_xor a b) (fun R' r => qiK R' q /\ uwK R' r (Z.lxor x y)).
Proof.
  intros Hq (Ga & Wa & Va) (Gb & Wb & Vb). pose proof Hq as [Ho _].
  eapply ewp_mono; [apply ewp_rwp; [apply (agr_xor a b); auto|]|].
  - unfold u_xor. apply ewp_bind.
    eapply ewp_mono; [apply (zip_ewp md bool_xor xorb) with (x := x) (y := y) (z := Z.lxor x y); auto|].
    + intros; now apply xor_ewp.
    + apply lxor_range; [apply Wa|apply Wb].
    + intros; apply Z.lxor_spec.
    + intros R' bits Hs Hb. cbn [ewp].
      instantiate (1 := fun R' r => wd (eb md R') (u_bits r) (Z.lxor x y) /\ (md = Honest -> u_val r = Some (Z.lxor x y))). cbn [u_bits u_val].
      split; [exact Hb|]. intros Hm. now rewrite (Va Hm), (Vb Hm).
  - intros R' r Hs [H1 [H2 H3]]. split; [eapply qiK_sub; eauto|]. split; auto.
Qed.
Lemma K_triop R nm f g h q a b c x y z :
  (forall R a b c x y z, ones R -> eb md R a x -> eb md R b y -> eb md R c z -> ewp md R (f a b c) (fun R' r => eb md R' r (g x y z))) ->
  (forall x y z, 0 <= x < 2 ^ 32 -> 0 <= y < 2 ^ 32 -> 0 <= z < 2 ^ 32 -> 0 <= h x y z < 2 ^ 32 /\
     forall i, 0 <= i < 32 -> Z.testbit (h x y z) i = g (Z.testbit x i) (Z.testbit y i) (Z.testbit z i)) ->
  (agr a -> agr b -> agr c -> rwp (u_triop nm f h a b c) agr) ->
  qiK R q -> uwK R a x -> uwK R b y -> uwK R c z -> ewp md R (u_triop nm f h a b c) (fun R' r => qiK R' q /\ uwK R' r (h x y z)).
Proof.
  intros Hf Hh Hr Hq (Ga & Wa & Va) (Gb & Wb & Vb) (Gc & Wc & Vc). pose proof Hq as [Ho _].
  destruct (Hh x y z) as [H1 H2]; [apply Wa|apply Wb|apply Wc|].
  eapply ewp_mono; [apply ewp_rwp; [apply Hr; auto|]|].
  - unfold u_triop. apply ewp_bind.
    eapply ewp_mono; [apply (zip3_ewp md f g) with (x := x) (y := y) (u := z) (z := h x y z); auto|].
    intros R' bits Hs Hb. cbn [ewp].
    instantiate (1 := fun R' r => wd (eb md R') (u_bits r) (h x y z) /\ (md = Honest -> u_val r = Some (h x y z))). cbn [u_bits u_val].
    split; [exact Hb|]. intros Hm. now rewrite (Va Hm), (Vb Hm), (Vc Hm).
  - intros R' r Hs [H3 [H4 H5]]. split; [eapply qiK_sub; eauto|]. split; auto.
Qed.
Lemma K_add R q us xs : qiK R q -> (2 <= length us <= 10)%nat -> Forall2 (uwK R) us xs ->
  ewp md R (u_addmany q us) (fun R' p => qiK R' (fst p) /\ uwK R' (snd p) (w32 (total xs))).
Proof.
  intros [Ho Hq] HL Hu.
  eapply ewp_mono; [apply ewp_rwp; [apply add_rwp|apply (add_ewp md R q us xs); auto]|].
  - clear -Hu. induction Hu; constructor; auto. apply H.
  - clear -Hu. induction Hu; constructor; auto. apply H.
  - intros R' p Hs [G (H1 & H2 & H3)]. split; [split; auto; eapply ones_sub; eauto|]. split; auto.
Qed.

Lemma sha_ewp R ins vs : ones R -> (length ins mod 8 = 0)%nat -> Forall2 (eb md R) ins vs ->
  ewp md R (sha256_r1cs ins) (fun R' outs => Forall2 (eb md R') outs (sha256 vs)).
Proof.
  intros Ho L8 Hi. assert (HC : (0 < CAPACITY)%nat) by (unfold CAPACITY; lia).
  pose proof (sha_wp known sub (fun A => ewp md) uwK qiK (eb md) (eb md)) as H.
  eapply ewp_mono; [apply (H) with (w := R) (ins := ins) (vs := vs)|]; clear H; auto.
  - apply sub_refl.
  - apply sub_trans.
  - intros A B S m f Q H. now apply ewp_bind.
  - intros A S m Q Q' H HQ. eapply ewp_mono; eauto.
  - intros A S nm m Q H. now apply ewp_ns.
  - intros S S' u x Hl (G & Wu & Vu). split; [exact G|]. split; auto. eapply wd_impl; [|exact Wu]. intros b v. now apply eb_sub.
  - intros S S' b x Hl. now apply eb_sub.
  - intros S q c [H _]. now apply eb_own.
  - intros; now apply K_xor.
  - intros. apply (K_triop _ _ bool_ch ch_bit Ch); auto; [intros; now apply ch_ewp|apply Ch_spec|apply agr_ch].
  - intros. apply (K_triop _ _ bool_maj maj_bit Maj); auto; [intros; now apply maj_ewp|apply Maj_spec|apply agr_maj].
  - intros S n u x Hn (G & Wy & Ey). split; [now apply agr_rotr|]. split; [now apply wd_rotr|]. intros Hm. cbn [u_rotr u_val]. now rewrite (Ey Hm).
  - intros S q n u x Hn [H _] (G & Wy & Ey). split; [now apply agr_shr|]. split; [apply wd_shr; auto; now apply eb_own|]. intros Hm. cbn [u_shr u_val]. now rewrite (Ey Hm).
  - intros S q v [H _] Hv. split; [now apply agr_const|]. split; [apply wd_const; auto; intros; now apply eb_own|]. reflexivity.
  - intros; now apply K_add.
  - intros S bits ws L H. split; [now apply agr_from|]. split; [now apply wd_from|]. intros Hm. cbn [u_val]. rewrite (F2_all_some bits ws); auto.
    clear -H Hm. induction H; constructor; auto. now apply H.
  - intros S q [H1 H2]. eapply ewp_mono; [now apply mq_drop_ewp|]. intros R' _ Hs _. split; [eapply ones_sub; eauto|]. now apply balanced_zero.
  - intros S u x _ (G & Wy & Ey). now apply wd_out.
  - split; auto. now apply balanced_zero.
  - intros R' outs _ [_ H]. exact H.
Qed.
End Known.

(** ** Runs *)
Lemma wire_feval rho b v : wire_bool rho b v <-> feval rho (bool_lc b 1) = Z.b2z v.
Proof. unfold wire_bool, wire_bit. symmetry. apply feval_eqp. apply b2z_canon. Qed.
Lemma F2_iff {A B} (P Q : A -> B -> Prop) l l' : (forall a b, P a b <-> Q a b) -> Forall2 P l l' -> Forall2 Q l l'.
Proof. intros H F. induction F; constructor; auto. now apply H. Qed.

Lemma top_sha_sound wit ins vs s outs s' rho : run wit (sha256_r1cs ins) s = (Ok outs, s') -> sat rho s' ->
  Forall2 (fun b v => feval rho (bool_lc b 1) = Z.b2z v) ins vs ->
  Forall2 (fun b v => feval rho (bool_lc b 1) = Z.b2z v) outs (sha256 vs).
Proof.
  intros Hr Hs Hi. assert (L8 : (length ins mod 8 = 0)%nat).
  { unfold sha256_r1cs in Hr. destruct (Nat.eqb_spec (length ins mod 8) 0); auto. cbn [negb run] in Hr. discriminate. }
  eapply F2_iff; [intros; apply wire_feval|]. apply (swp_run_any wit rho (sha256_r1cs ins) s outs s' (fun o => Forall2 (wire_bool rho) o (sha256 vs)) Hr Hs). apply sha_swp; auto; [apply Hs|].
  eapply F2_iff; [intros; symmetry; apply wire_feval|exact Hi].
Qed.

Lemma top_sha_complete ins vs s : good s -> (64 <= NUM_BITS)%nat -> (length ins mod 8 = 0)%nat -> Forall2 (boolean_at s) ins vs ->
  exists outs s', run true (sha256_r1cs ins) s = (Ok outs, s') /\ good s' /\ Forall2 (boolean_at s') outs (sha256 vs).
Proof.
  intros Hg HN L8 Hi.
  destruct (ewp_honest (sha256_r1cs ins) s (fun rho => agree s rho) (fun R' outs => Forall2 (eb Honest R') outs (sha256 vs)) Hg) as (outs & s' & R' & H1 & H2 & H3 & H4); auto.
  - apply sha_ewp; auto; [intros rho Ha; now apply Hg|]. clear -Hi Hg W. induction Hi as [|b v ins vs [Hv Hc] H IH]; constructor; auto.
    split; auto. intros rho Ha. apply wire_feval. apply Hc; auto. now apply Hg.
  - exists outs, s'. split; [exact H1|]. split; [exact H2|]. clear -H3 H4 W. induction H4 as [|b v outs ws [Hw Hv] H IH]; constructor; auto.
    split; auto. intros rho Ha _. apply wire_feval. auto.
Qed.

Lemma top_sha_extends wit ins vs s outs s' rho0 : good_for rho0 s -> (64 <= NUM_BITS)%nat ->
  Forall2 (fun b v => carries_for rho0 s (bool_lc b 1) (Z.b2z v)) ins vs -> run wit (sha256_r1cs ins) s = (Ok outs, s') ->
  exists rho, same_on s rho rho0 /\ good_for rho s' /\ Forall2 (fun b v => carries_for rho s' (bool_lc b 1) (Z.b2z v)) outs (sha256 vs).
Proof.
  intros Hg HN Hi Hr. assert (L8 : (length ins mod 8 = 0)%nat).
  { unfold sha256_r1cs in Hr. destruct (Nat.eqb_spec (length ins mod 8) 0); auto. cbn [negb run] in Hr. discriminate. }
  destruct (ewp_run wit (sha256_r1cs ins) s rho0 (fun rho => same_on s rho rho0) (fun R' outs => Forall2 (eb (md_of wit) R') outs (sha256 vs)) outs s' Hg) as (rho & R' & H1 & H2 & H3 & H4); auto.
  - apply sha_ewp; auto; [intros rho Ha; now apply Hg|]. clear -Hi Hg W. induction Hi as [|b v ins vs Hc H IH]; constructor; auto.
    split; [|apply md_of_not]. intros rho Ha. apply wire_feval. apply Hc; auto. now apply Hg.
  - exists rho. split; [exact H1|]. split; [exact H2|]. clear -H3 H4 W. induction H4 as [|b v outs ws [Hw _] H IH]; constructor; auto.
    intros r Ha _. apply wire_feval. auto.
Qed.

(** Without assumptions on the state: nothing is known of the inputs, nothing need hold. *)
Lemma ewp_total {A} (m : prog A) : forall s (R : known) (Q : known -> A -> Prop), ewp Shape R m Q -> exists a s', run false m s = (Ok a, s').
Proof.
  induction m as [a0|e| |inp nm w k IH|nm c k IH|nm k IH|k IH]; intros s R Q H; simpl in *; try tauto; eauto.
  - destruct H as (y & _ & Hk). eapply IH, Hk. reflexivity.
  - destruct H as [_ H]. eauto.
Qed.
Lemma top_sha_shape ins s : (64 <= NUM_BITS)%nat ->
  (fst (run false (sha256_r1cs ins) s) = Panic <-> (length ins mod 8 <> 0)%nat) /\ ((length ins mod 8 = 0)%nat -> exists outs s', run false (sha256_r1cs ins) s = (Ok outs, s')).
Proof.
  intros HN. assert (G : (length ins mod 8 = 0)%nat -> exists outs s', run false (sha256_r1cs ins) s = (Ok outs, s')).
  { intros L8. eapply ewp_total. apply (sha_ewp Shape HN (fun _ => False) ins (map (fun _ => false) ins)); auto.
    - intros rho [].
    - clear. induction ins; cbn [map]; constructor; auto. split; [intros rho []|discriminate]. }
  split; [|exact G]. split.
  - intros H L8. destruct (G L8) as (outs & s' & Hr). rewrite Hr in H. discriminate.
  - intros H. unfold sha256_r1cs. destruct (Nat.eqb_spec (length ins mod 8) 0); [contradiction|]. reflexivity.
Qed.
End ShaInst.

(** ** An instance: a message of allocated bits *)
Section Case.
Context {E : Env} {W : Wf E}.
Definition alloc_bits (vs : list bool) : prog (list Boolean) := mapM (fun v => let! b := ab_alloc (Some v) in Ret (BIs b)) vs.
Lemma alloc_bits_run vs s : good s -> exists bs s', run true (alloc_bits vs) s = (Ok bs, s') /\ good s' /\ Forall2 (boolean_at s') bs vs.
Proof.
  intros Hg.
  destruct (ewp_honest (alloc_bits vs) s (fun rho => agree s rho) (fun R' bs => Forall2 (eb Honest R') bs vs) Hg) as (bs & s' & R' & H1 & H2 & H3 & H4); auto.
  - apply ewp_mapM with (T := fun R v b => eb Honest R b v).
    + intros R R' a b Hs. now apply eb_sub.
    + intros v R' _ Hs. apply ewp_bind. eapply ewp_mono; [apply (ab_alloc_ewp Honest R' (Some v) v); auto|].
      * intros rho Hr. apply Hg. now apply Hs.
      * intros R2 r _ [_ H]. exact H.
    + intros R' bs _ H. clear -H. induction H; constructor; auto.
  - exists bs, s'. split; [exact H1|]. split; [exact H2|]. clear -H3 H4 W. induction H4 as [|b v bs vs [Hw Hv] H IH]; constructor; auto.
    split; auto. intros rho Ha _. apply wire_feval. auto.
Qed.
End Case.
