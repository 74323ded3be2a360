(** The compression rounds, once for every way of reasoning about programs that satisfies a few rules. *)
From Coq Require Import ZArith Bool List Lia ZifyNat.
From Verif.Model Require Import Base Sha256 CS Bellpepper ShaGadget.
From Verif.Proofs Require Import Field Arith HashP ShaP ShaWords.
Import ListNotations.
Local Open Scope Z_scope.

Notation total := (fold_right Z.add 0).

(** ** Numbers *)
Lemma w32_idem_l a b : w32 (w32 a + b) = w32 (a + b).
Proof. unfold w32. apply Zplus_mod_idemp_l. Qed.
Lemma w32_idem_r a b : w32 (a + w32 b) = w32 (a + b).
Proof. unfold w32. apply Zplus_mod_idemp_r. Qed.
Lemma w32_twice a : w32 (w32 a) = w32 a.
Proof. unfold w32. apply Zmod_mod. Qed.
Lemma ext_sum a b c d : w32 (total [a; b; c; d]) = add32 (add32 d c) (add32 b a).
Proof. unfold add32. rewrite w32_idem_l, w32_idem_r. cbn [fold_right]. f_equal. ring. Qed.
Lemma t1_sum h s c k w : w32 (total [h; s; c; k; w]) = add32 (add32 (add32 h s) (add32 c k)) w.
Proof.
  unfold add32. rewrite (w32_idem_l (h + s)), (w32_idem_r (h + s)), w32_idem_l.
  cbn [fold_right]. f_equal. ring.
Qed.
Lemma a_sum h s c k w p q : w32 (total [h; s; c; k; w; p; q]) = add32 (add32 (add32 (add32 h s) (add32 c k)) w) (add32 p q).
Proof. rewrite <- t1_sum. unfold add32. rewrite w32_idem_l, w32_idem_r. cbn [fold_right]. f_equal. ring. Qed.
Lemma e_sum h s c k w d : w32 (total [h; s; c; k; w; d]) = add32 d (add32 (add32 (add32 h s) (add32 c k)) w).
Proof. rewrite <- t1_sum. unfold add32. rewrite w32_idem_r. cbn [fold_right]. f_equal. ring. Qed.
Lemma total_app xs ys : total (xs ++ ys) = total xs + total ys.
Proof. induction xs; cbn [fold_right app]; lia. Qed.

Lemma K_range i : 0 <= nth i K256 0 < 2 ^ 32.
Proof.
  destruct (Nat.lt_ge_cases i 64) as [H|H]; [|rewrite nth_overflow by exact H; lia].
  assert (F : Forall (fun k => 0 <= k < 2 ^ 32) K256) by (unfold K256; repeat (apply Forall_cons; [lia|]); apply Forall_nil).
  rewrite Forall_forall in F. apply F, nth_In. exact H.
Qed.
Lemma H0_range : Forall (fun k => 0 <= k < 2 ^ 32) H0.
Proof. unfold H0. repeat (apply Forall_cons; [lia|]). apply Forall_nil. Qed.

Lemma F2_nth {A B} (R : A -> B -> Prop) l l' d i : Forall2 R l l' -> (i < length l)%nat -> exists a, nth_error l i = Some a /\ R a (nth i l' d).
Proof.
  intros H. revert i. induction H; intros i Hi; [cbn in Hi; lia|]. destruct i; cbn [nth nth_error]; eauto. apply IHForall2. cbn in Hi. lia.
Qed.
Lemma F2_firstn {A B} (R : A -> B -> Prop) n : forall l l', Forall2 R l l' -> Forall2 R (firstn n l) (firstn n l').
Proof. induction n; intros l l' H; cbn; [constructor|]. inversion H; constructor; auto. Qed.
Lemma F2_skipn {A B} (R : A -> B -> Prop) n : forall l l', Forall2 R l l' -> Forall2 R (skipn n l) (skipn n l').
Proof. induction n; intros l l' H; cbn; auto. inversion H; auto. Qed.
Lemma F2_chunks {A B} (R : A -> B -> Prop) n : forall f l l', Forall2 R l l' -> Forall2 (Forall2 R) (chunks f n l) (chunks f n l').
Proof.
  induction f as [|f IH]; intros l l' H; inversion H; subst; cbn [chunks]; try constructor.
  - apply F2_firstn. constructor; auto.
  - apply IH, F2_skipn. constructor; auto.
Qed.
Lemma chunks_fuel {A} n : (0 < n)%nat -> forall f f' (l : list A), (length l <= f * n)%nat -> (length l <= f' * n)%nat -> chunks f n l = chunks f' n l.
Proof.
  intros Hn. induction f as [|f IH]; intros f' l H H'.
  - destruct l; [now destruct f'|cbn in H; lia].
  - destruct l as [|a l]; [now destruct f'|]. destruct f' as [|f']; [cbn in H'; lia|]. cbn [chunks]. f_equal.
    apply IH; rewrite skipn_length; lia.
Qed.
Lemma chunks_lengths {A} n m (l : list A) f : (0 < n)%nat -> length l = (n * m)%nat -> (m <= f)%nat ->
  length (chunks f n l) = m /\ Forall (fun c => length c = n) (chunks f n l).
Proof.
  intros Hn L Hf. rewrite (chunks_spec n Hn m) by auto. split; [now rewrite map_length, seq_length|].
  apply Forall_forall. intros c Hc. apply in_map_iff in Hc. destruct Hc as (i & <- & Hi). apply in_seq in Hi.
  rewrite firstn_length, skipn_length. nia.
Qed.
Lemma firstn_S {A} (l : list A) d k : (k < length l)%nat -> firstn (S k) l = firstn k l ++ [nth k l d].
Proof. revert k. induction l as [|a l IH]; intros k H; [cbn in H; lia|]. destruct k; auto. cbn [firstn nth app]. f_equal. apply IH. cbn in H. lia. Qed.

(** ** Padding *)
Lemma pad_counts l : ((512 - (l + 1 + 64) mod 512) mod 512 = (448 + 512 - (l + 1) mod 512) mod 512)%nat.
Proof.
  symmetry. apply pad_count; [apply Nat.mod_upper_bound; lia|].
  set (m := (l + 1 + 64)%nat). assert (Hm : (64 <= m)%nat) by (unfold m; lia).
  replace (l + 1 + (512 - m mod 512) mod 512)%nat with (m + (512 - m mod 512) mod 512 - 64)%nat by (unfold m; lia).
  pose proof (Nat.div_mod m 512 ltac:(lia)) as D. pose proof (Nat.mod_upper_bound m 512 ltac:(lia)).
  destruct (Nat.eq_dec (m mod 512) 0) as [Z0|Z0].
  - rewrite Z0, Nat.sub_0_r, Nat.mod_same by lia. apply (mod_nat _ _ (m / 512 - 1)); lia.
  - rewrite (Nat.mod_small (512 - m mod 512)) by lia. apply (mod_nat _ _ (m / 512)); lia.
Qed.
Lemma length_bits l : map (fun i => Z.testbit (Z.of_nat l mod 2 ^ 64) (Z.of_nat i)) (rev (seq 0 64)) = Z_to_bits 64 (Z.of_nat l).
Proof.
  assert (G : forall n, (n <= 64)%nat -> map (fun i => Z.testbit (Z.of_nat l mod 2 ^ 64) (Z.of_nat i)) (rev (seq 0 n)) = Z_to_bits n (Z.of_nat l)).
  { induction n as [|n IH]; intros Hn; auto. rewrite seq_S, rev_app_distr. cbn [rev app map Z_to_bits]. rewrite IH by lia.
    f_equal. now rewrite Z.mod_pow2_bits_low by lia. }
  apply G. lia.
Qed.
Lemma pad_F2 (P : Boolean -> bool -> Prop) ins vs : (forall c, P (BConst c) c) -> Forall2 P ins vs -> Forall2 P (sha_pad ins) (pad vs).
Proof.
  intros Hc H. unfold sha_pad, pad. rewrite (Forall2_length _ _ _ H), pad_counts, <- length_bits.
  apply Forall2_app; [exact H|]. apply Forall2_app; [constructor; auto|]. apply Forall2_app.
  - generalize (((448 + 512 - (length vs + 1) mod 512) mod 512)%nat). intros n. induction n; cbn [repeat]; constructor; auto.
  - generalize (rev (seq 0 64)). intros l. induction l; cbn [map]; constructor; auto.
Qed.

Section Logic.
Context {E : Env}.
Context (World : Type) (le : World -> World -> Prop)
  (wp : forall A, World -> prog A -> (World -> A -> Prop) -> Prop)
  (uw : World -> u32 -> Z -> Prop) (qi : World -> meq -> Prop) (bi bo : World -> Boolean -> bool -> Prop).
Arguments wp {A}.
Context
  (le_refl : forall w, le w w) (le_trans : forall a b c, le a b -> le b c -> le a c)
  (wp_ret : forall A w (a : A) (Q : World -> A -> Prop), Q w a -> wp w (Ret a) Q)
  (wp_bind : forall A B w (m : prog A) (f : A -> prog B) (Q : World -> B -> Prop), wp w m (fun w' a => wp w' (f a) Q) -> wp w (bind m f) Q)
  (wp_mono : forall A w (m : prog A) (Q Q' : World -> A -> Prop), wp w m Q -> (forall w' a, le w' w -> Q w' a -> Q' w' a) -> wp w m Q')
  (wp_ns : forall A w nm (m : prog A) (Q : World -> A -> Prop), wp w m Q -> wp w (ns nm m) Q)
  (uw_le : forall w w' u x, le w' w -> uw w u x -> uw w' u x)
  (bi_le : forall w w' b x, le w' w -> bi w b x -> bi w' b x)
  (bi_const : forall w q c, qi w q -> bi w (BConst c) c)
  (R_xor : forall w q a b x y, qi w q -> uw w a x -> uw w b y -> wp w (u_xor a b) (fun w' r => qi w' q /\ uw w' r (Z.lxor x y)))
  (R_ch : forall w q a b c x y z, qi w q -> uw w a x -> uw w b y -> uw w c z -> wp w (u_ch a b c) (fun w' r => qi w' q /\ uw w' r (Ch x y z)))
  (R_maj : forall w q a b c x y z, qi w q -> uw w a x -> uw w b y -> uw w c z -> wp w (u_maj a b c) (fun w' r => qi w' q /\ uw w' r (Maj x y z)))
  (R_rotr : forall w n u x, (0 < n < 32)%nat -> uw w u x -> uw w (u_rotr n u) (rotr (Z.of_nat n) x))
  (R_shr : forall w q n u x, (n < 32)%nat -> qi w q -> uw w u x -> uw w (u_shr n u) (shr32 (Z.of_nat n) x))
  (R_const : forall w q v, qi w q -> 0 <= v < 2 ^ 32 -> uw w (u_constant v) v)
  (R_add : forall w q us xs, qi w q -> (2 <= length us <= 10)%nat -> Forall2 (uw w) us xs ->
     wp w (u_addmany q us) (fun w' p => qi w' (fst p) /\ uw w' (snd p) (w32 (total xs))))
  (R_from : forall w bits vs, length bits = 32%nat -> Forall2 (bi w) bits vs ->
     uw w (mkU32 (rev bits) (option_map bits_to_Z (all_some (map bool_val bits)))) (bits_to_Z vs))
  (R_drop : forall w q, qi w q -> wp w (mq_drop q) (fun w' _ => qi w' mq_new))
  (R_out : forall w u x, qi w mq_new -> uw w u x -> Forall2 (bo w) (u_into_be u) (Z_to_bits 32 x)).

Lemma uws_le w w' us xs : le w' w -> Forall2 (uw w) us xs -> Forall2 (uw w') us xs.
Proof. intros Hl H. induction H; constructor; eauto. Qed.
Lemma bis_le w w' bs vs : le w' w -> Forall2 (bi w) bs vs -> Forall2 (bi w') bs vs.
Proof. intros Hl H. induction H; constructor; eauto. Qed.

Lemma wp_fold {A S} (f : S -> A -> prog S) (l : list A) d (I : nat -> World -> S -> Prop) w s :
  I 0%nat w s -> (forall k w s, (k < length l)%nat -> I k w s -> wp w (f s (nth k l d)) (I (Datatypes.S k))) ->
  wp w (foldM f l s) (I (length l)).
Proof.
  revert I w s. induction l as [|a l IH]; intros I w s H0' H; cbn [foldM].
  - apply wp_ret, H0'.
  - apply wp_bind. eapply wp_mono; [apply (H 0%nat); [cbn; lia|exact H0']|]. intros w' s' _ Hs. cbn [length].
    apply (IH (fun k => I (Datatypes.S k))); auto. intros k w2 s2 Hk. apply (H (Datatypes.S k)). cbn. lia.
Qed.

Ltac un := cbv beta; match goal with |- @wp _ _ (bind _ _) _ => apply wp_bind | |- @wp _ _ (ns _ _) _ => apply wp_ns end.

(** ** Message schedule *)
Definition ext_inv (W : list Z) (k : nat) (w : World) (st : meq * list u32) : Prop :=
  qi w (fst st) /\ exists xs, length xs = (16 + k)%nat /\ Forall2 (uw w) (snd st) xs /\ rev (schedule (48 - k) (rev xs)) = W.

Lemma ext_step W k w st : (k < 48)%nat -> ext_inv W k w st -> wp w (w_extend st (nth k (seq 16 48) 0%nat)) (ext_inv W (S k)).
Proof.
  intros Hk (Hq & xs & L & Hw & HW). rewrite seq_nth by lia. destruct st as [q ws]. cbn [fst snd] in *. unfold w_extend.
  pose proof (Forall2_length _ _ _ Hw) as Lw.
  destruct (F2_nth _ _ _ 0 (16 + k - 15)%nat Hw ltac:(lia)) as (w15 & I15 & U15).
  destruct (F2_nth _ _ _ 0 (16 + k - 2)%nat Hw ltac:(lia)) as (w2 & I2 & U2).
  destruct (F2_nth _ _ _ 0 (16 + k - 16)%nat Hw ltac:(lia)) as (w16 & I16 & U16).
  destruct (F2_nth _ _ _ 0 (16 + k - 7)%nat Hw ltac:(lia)) as (w7 & I7 & U7).
  unfold idx. rewrite I15, I2, I16, I7. cbn [unwrap lift]. un. cbn [bind].
  un. un. eapply wp_mono; [apply (R_xor _ q); [exact Hq|apply R_rotr; [lia|exact U15]|apply R_rotr; [lia|exact U15]]|].
  intros w1 s0 L1 [Q1 S0]. 
  un. un. eapply wp_mono; [apply (R_xor _ q); [exact Q1|exact S0|apply (R_shr _ q); [lia|exact Q1|eapply uw_le; [exact L1|exact U15]]]|].
  clear dependent s0. intros w3 s0 L3 [Q3 S0]. pose proof (le_trans _ _ _ L3 L1) as L31.
  cbn [bind]. un. un. eapply wp_mono; [apply (R_xor _ q); [exact Q3|apply R_rotr; [lia|eapply uw_le; [exact L31|exact U2]]|apply R_rotr; [lia|eapply uw_le; [exact L31|exact U2]]]|].
  intros w4 s1 L4 [Q4 S1]. pose proof (le_trans _ _ _ L4 L31) as L41.
  un. un. eapply wp_mono; [apply (R_xor _ q); [exact Q4|exact S1|apply (R_shr _ q); [lia|exact Q4|eapply uw_le; [exact L41|exact U2]]]|].
  clear dependent s1. intros w5 s1 L5 [Q5 S1]. pose proof (le_trans _ _ _ L5 L41) as L51.
  cbn [bind]. un. un. eapply wp_mono; [apply (R_add _ q) with (xs := [nth (16 + k - 16) xs 0; sig0 (nth (16 + k - 15) xs 0); nth (16 + k - 7) xs 0; sig1 (nth (16 + k - 2) xs 0)]);
    [exact Q5|cbn; lia|]|].
  - repeat apply Forall2_cons; try apply Forall2_nil.
    + eapply uw_le; [exact L51|exact U16].
    + eapply uw_le; [exact (le_trans _ _ _ L5 L4)|exact S0].
    + eapply uw_le; [exact L51|exact U7].
    + exact S1.
  - intros w6 [q' t] L6 [Q6 T]. cbn [fst snd] in *. apply wp_ret. split; [exact Q6|]. cbn [snd].
    exists (xs ++ [w32 (total [nth (16 + k - 16) xs 0; sig0 (nth (16 + k - 15) xs 0); nth (16 + k - 7) xs 0; sig1 (nth (16 + k - 2) xs 0)])]).
    split; [rewrite app_length; cbn; lia|]. split.
    + apply Forall2_app; [eapply uws_le; [exact (le_trans _ _ _ L6 L51)|exact Hw]|]. constructor; [exact T|constructor].
    + rewrite <- HW. replace (48 - k)%nat with (S (48 - S k)) by lia. cbn [schedule]. rewrite rev_app_distr. cbn [rev app].
      do 3 f_equal. rewrite ext_sum, !rev_nth, L by lia.
      reflexivity.
Qed.

(** ** Rounds *)
Definition mv (w : World) (def : bool) (m : maybe) (x : Z) : Prop :=
  match m with
  | Concrete u => def = false /\ uw w u x
  | Deferred us => exists xs, Forall2 (uw w) us xs /\ (2 <= length us <= 7)%nat /\ w32 (total xs) = x
  end.
Lemma mv_le w w' def m x : le w' w -> mv w def m x -> mv w' def m x.
Proof.
  intros Hl. destruct m; cbn [mv]; [intros (xs & H1 & H2)|intros [H1 H2]; eauto]. exists xs. split; auto. eapply uws_le; eauto.
Qed.
Lemma compute_wp w q def m x : qi w q -> mv w def m x -> wp w (mb_compute q m []) (fun w' p => qi w' (fst p) /\ uw w' (snd p) x).
Proof.
  intros Hq Hm. destruct m as [us|u]; cbn [mb_compute mv] in *.
  - destruct Hm as (xs & H1 & H2 & <-). rewrite app_nil_r. apply R_add; auto. lia.
  - apply wp_ret. split; [exact Hq|apply Hm].
Qed.
Lemma compute_final w q m x h y : qi w q -> mv w true m x -> uw w h y -> wp w (mb_compute q m [h]) (fun w' p => qi w' (fst p) /\ uw w' (snd p) (add32 y x)).
Proof.
  intros Hq Hm Hh. destruct m as [us|u]; cbn [mb_compute mv] in *; [|destruct Hm; discriminate].
  destruct Hm as (xs & H1 & H2 & <-). eapply wp_mono; [apply (R_add _ q) with (xs := xs ++ [y])|].
  - exact Hq.
  - rewrite app_length. cbn. lia.
  - apply Forall2_app; auto.
  - intros w' p _ [H3 H4]. split; [exact H3|]. rewrite total_app in H4. cbn [fold_right] in H4. unfold add32.
    rewrite w32_idem_r. now replace (y + total xs) with (total xs + (y + 0)) by ring.
Qed.

Definition rv (w : World) (def : bool) (v : rvars) (l : list Z) : Prop := exists a b c d e f g h,
  l = [a; b; c; d; e; f; g; h] /\ mv w def (ra v) a /\ uw w (rb v) b /\ uw w (rc v) c /\ uw w (rd v) d /\
  mv w def (re v) e /\ uw w (rf v) f /\ uw w (rg v) g /\ uw w (rh v) h.
Definition rnd_inv (ws : list u32) (xs h : list Z) (k : nat) (w : World) (st : meq * rvars) : Prop :=
  qi w (fst st) /\ Forall2 (uw w) ws xs /\ rv w (Nat.ltb 0 k) (snd st) (fold_left round (firstn k (combine K256 xs)) h).

Lemma rnd_step ws xs h k w st : length xs = 64%nat -> (k < 64)%nat -> rnd_inv ws xs h k w st ->
  wp w (sha_round ws st (nth k (seq 0 64) 0%nat)) (rnd_inv ws xs h (S k)).
Proof.
  intros Lx Hk (Hq & Hw & a & b & c & d & e & f & g & hh & El & Ma & Ub & Uc & Ud & Me & Uf & Ug & Uh).
  rewrite seq_nth by lia. cbn [Nat.add]. destruct st as [q v]. cbn [fst snd] in *. unfold sha_round.
  pose proof (Forall2_length _ _ _ Hw) as Lw.
  destruct (F2_nth _ _ _ 0 k Hw ltac:(lia)) as (wi & Iw & Uw). unfold idx. rewrite Iw. cbn [unwrap lift].
  un. un. un. eapply wp_mono; [eapply compute_wp; [exact Hq|exact Me]|]. intros w1 [q1 ne] L1 [Q1 Ue]. cbn [fst snd] in *.
  un. un. eapply wp_mono; [apply (R_xor _ q1); [exact Q1|apply R_rotr; [lia|exact Ue]|apply R_rotr; [lia|exact Ue]]|].
  intros w2 s1 L2 [Q2 S1].
  un. un. eapply wp_mono; [apply (R_xor _ q1); [exact Q2|exact S1|apply R_rotr; [lia|eapply uw_le; [exact L2|exact Ue]]]|].
  clear dependent s1. intros w3 s1 L3 [Q3 S1]. pose proof (le_trans _ _ _ L3 L2) as L32. pose proof (le_trans _ _ _ L32 L1) as L31.
  un. un. eapply wp_mono; [apply (R_ch _ q1); [exact Q3|eapply uw_le; [exact L32|exact Ue]|eapply uw_le; [exact L31|exact Uf]|eapply uw_le; [exact L31|exact Ug]]|].
  intros w4 ch L4 [Q4 C4]. pose proof (le_trans _ _ _ L4 L31) as L41. cbn [bind].
  un. un. eapply wp_mono; [eapply compute_wp; [exact Q4|eapply mv_le; [exact L41|exact Ma]]|].
  intros w5 [q5 na] L5 [Q5 Ua]. cbn [fst snd] in *. pose proof (le_trans _ _ _ L5 L41) as L51.
  un. un. eapply wp_mono; [apply (R_xor _ q5); [exact Q5|apply R_rotr; [lia|exact Ua]|apply R_rotr; [lia|exact Ua]]|].
  intros w6 s0 L6 [Q6 S0].
  un. un. eapply wp_mono; [apply (R_xor _ q5); [exact Q6|exact S0|apply R_rotr; [lia|eapply uw_le; [exact L6|exact Ua]]]|].
  clear dependent s0. intros w7 s0 L7 [Q7 S0]. pose proof (le_trans _ _ _ L7 L6) as L76. pose proof (le_trans _ _ _ L76 L51) as L71.
  un. un. eapply wp_mono; [apply (R_maj _ q5); [exact Q7|eapply uw_le; [exact L76|exact Ua]|eapply uw_le; [exact L71|exact Ub]|eapply uw_le; [exact L71|exact Uc]]|].
  intros w8 mj L8 [Q8 M8]. pose proof (le_trans _ _ _ L8 L71) as L81. pose proof (le_trans _ _ _ L8 L76) as L86.
  pose proof (le_trans _ _ _ L86 L5) as L85. pose proof (le_trans _ _ _ L85 L4) as L84. pose proof (le_trans _ _ _ L84 L32) as L82.
  apply wp_ret. split; [exact Q8|]. split; [eapply uws_le; [exact L81|exact Hw]|]. cbn [snd].
  rewrite (firstn_S _ (0, 0)) by (rewrite combine_length, Lx; exact Hk). rewrite fold_left_app, El. cbn [fold_left round].
  rewrite combine_nth by (rewrite Lx; reflexivity). cbn [fst snd].
  assert (Kc : uw w8 (u_constant (nth k K256 0)) (nth k K256 0)) by (eapply R_const; [exact Q8|apply K_range]).
  assert (T1 : Forall2 (uw w8) [rh v; s1; ch; u_constant (nth k K256 0); wi] [hh; Sig1 e; Ch e f g; nth k K256 0; nth k xs 0]).
  { repeat apply Forall2_cons; try apply Forall2_nil.
    - eapply uw_le; [exact L81|exact Uh].
    - eapply uw_le; [exact L84|exact S1].
    - eapply uw_le; [exact L85|exact C4].
    - exact Kc.
    - eapply uw_le; [exact L81|exact Uw]. }
  unfold rv. do 8 eexists. split; [reflexivity|]. cbn [ra rb rc rd re rf rg rh mv].
  split; [exists ([hh; Sig1 e; Ch e f g; nth k K256 0; nth k xs 0] ++ [Sig0 a; Maj a b c])|].
  { split; [apply Forall2_app; [exact T1|]|].
    - constructor; [eapply uw_le; [exact L8|exact S0]|]. constructor; [exact M8|constructor].
    - split; [cbn; lia|]. cbn [app]. apply a_sum. }
  split; [eapply uw_le; [exact L86|exact Ua]|]. split; [eapply uw_le; [exact L81|exact Ub]|]. split; [eapply uw_le; [exact L81|exact Uc]|].
  split; [exists ([hh; Sig1 e; Ch e f g; nth k K256 0; nth k xs 0] ++ [d])|].
  { split; [apply Forall2_app; [exact T1|]|].
    - constructor; [eapply uw_le; [exact L81|exact Ud]|constructor].
    - split; [cbn; lia|]. cbn [app]. apply e_sum. }
  split; [eapply uw_le; [exact L82|exact Ue]|]. split; eapply uw_le; [exact L81|exact Uf|exact L81|exact Ug].
Qed.

Lemma add2_wp w q a b x y : qi w q -> uw w a x -> uw w b y ->
  wp w (u_addmany q [a; b]) (fun w' p => qi w' (fst p) /\ uw w' (snd p) (add32 x y)).
Proof.
  intros Hq Ha Hb. eapply wp_mono; [apply (R_add _ q) with (xs := [x; y]); [exact Hq|cbn; lia|repeat constructor; assumption]|].
  intros w' p _ [H1 H2]. split; [exact H1|]. cbn [fold_right] in H2. unfold add32. now replace (x + y) with (x + (y + 0)) by ring.
Qed.

(** ** One block *)
Lemma from_all l : Forall (fun c => length c = 32%nat) l ->
  mapM u_from_be l = Ret (map (fun bits => mkU32 (rev bits) (option_map bits_to_Z (all_some (map bool_val bits)))) l).
Proof.
  intros H. induction H as [|c l Hc H IH]; auto. cbn [mapM map]. unfold u_from_be at 1. rewrite Hc. cbn [Nat.eqb negb bind].
  now rewrite IH.
Qed.
Lemma compress_wp w input vs cur hs : qi w mq_new -> length input = 512%nat -> Forall2 (bi w) input vs -> Forall2 (uw w) cur hs -> length hs = 8%nat ->
  wp w (sha_compress input cur) (fun w' o => qi w' mq_new /\ Forall2 (uw w') o (compress hs (map bits_to_Z (chunks 16 32 vs)))).
Proof.
  intros Hq Li Hi Hc Lh. pose proof (Forall2_length _ _ _ Hi) as Lv. pose proof (Forall2_length _ _ _ Hc) as Lc.
  do 8 (destruct hs as [|? hs]; [cbn in Lh; lia|]). destruct hs; [|cbn in Lh; lia].
  do 8 (destruct cur as [|? cur]; [cbn in Lc; lia|]). destruct cur; [|cbn in Lc; lia].
  repeat match goal with H : Forall2 _ (_ :: _) (_ :: _) |- _ => inversion H; subst; clear H end.
  match goal with H : Forall2 _ [] [] |- _ => clear H end.
  unfold sha_compress. rewrite Li. cbn [Nat.eqb negb].
  destruct (chunks_lengths 32 16 input 512 ltac:(lia) ltac:(lia) ltac:(lia)) as [Ln Fl]. rewrite (from_all _ Fl). cbn [bind].
  rewrite (chunks_fuel 32 ltac:(lia) 16 512 vs) by lia.
  set (bl := map bits_to_Z (chunks 512 32 vs)).
  assert (Hb : Forall2 (uw w) (map (fun bits => mkU32 (rev bits) (option_map bits_to_Z (all_some (map bool_val bits)))) (chunks 512 32 input)) bl).
  { unfold bl. pose proof (F2_chunks (bi w) 32 512 _ _ Hi) as F. clear -F Fl R_from. induction F; cbn [map]; constructor.
    - apply R_from; auto. now inversion Fl.
    - apply IHF. now inversion Fl. }
  set (wb := map _ (chunks 512 32 input)) in *. remember (rev (schedule 48 (rev bl))) as W eqn:EW.
  un. eapply wp_mono; [apply (wp_fold w_extend (seq 16 48) 0%nat (ext_inv W))|].
  - split; [exact Hq|]. exists bl. split; [|split; [exact Hb|symmetry; exact EW]]. unfold bl. rewrite map_length.
    destruct (chunks_lengths 32 16 vs 512 ltac:(lia) ltac:(lia) ltac:(lia)) as [-> _]. reflexivity.
  - rewrite seq_length. intros k w0 s0 Hk. now apply ext_step.
  - rewrite seq_length. intros w1 [q1 ws] L1 (Q1 & xs & Lx & Hx & Ex). cbn [fst snd] in *. cbn [Nat.sub schedule] in Ex. rewrite rev_involutive in Ex. subst xs.
    clear Hb.
    un. eapply wp_mono; [apply (wp_fold (sha_round ws) (seq 0 64) 0%nat (rnd_inv ws W [z; z0; z1; z2; z3; z4; z5; z6]))|].
    + split; [exact Q1|]. split; [exact Hx|]. cbn [Nat.ltb Nat.leb snd firstn fold_left]. unfold rv. do 8 eexists. split; [reflexivity|].
      cbn [ra rb rc rd re rf rg rh mv]. repeat match goal with |- _ /\ _ => split end; auto; eapply uw_le; eauto.
    + rewrite seq_length. intros k w0 s0 Hk. now apply rnd_step.
    + rewrite seq_length. intros w2 [q2 v] L2 (Q2 & _ & a & b & c & d & e & f & g & h & El & Ma & Ub & Uc & Ud & Me & Uf & Ug & Uh).
      cbn [fst snd] in *. change (Nat.ltb 0 64) with true in *.
      rewrite firstn_all2 in El by (rewrite combine_length; change (length K256) with 64%nat; lia).
      pose proof (le_trans _ _ _ L2 L1) as M21.
      un. un. eapply wp_mono; [eapply compute_final; [exact Q2|exact Ma|eapply uw_le; [exact M21|exact H2]]|].
      intros w3 [q3 o3] L3 [Q3 O3]. cbn [fst snd] in *. pose proof (le_trans _ _ _ L3 M21) as M31. pose proof L3 as M32.
      un. un. eapply wp_mono; [eapply add2_wp; [exact Q3|eapply uw_le; [exact M31|exact H3]|eapply uw_le; [exact M32|exact Ub]]|].
      intros w4 [q4 o4] L4 [Q4 O4]. cbn [fst snd] in *. pose proof (le_trans _ _ _ L4 M31) as M41. pose proof (le_trans _ _ _ L4 M32) as M42.
      un. un. eapply wp_mono; [eapply add2_wp; [exact Q4|eapply uw_le; [exact M41|exact H4]|eapply uw_le; [exact M42|exact Uc]]|].
      intros w5 [q5 o5] L5 [Q5 O5]. cbn [fst snd] in *. pose proof (le_trans _ _ _ L5 M41) as M51. pose proof (le_trans _ _ _ L5 M42) as M52.
      un. un. eapply wp_mono; [eapply add2_wp; [exact Q5|eapply uw_le; [exact M51|exact H5]|eapply uw_le; [exact M52|exact Ud]]|].
      intros w6 [q6 o6] L6 [Q6 O6]. cbn [fst snd] in *. pose proof (le_trans _ _ _ L6 M51) as M61. pose proof (le_trans _ _ _ L6 M52) as M62.
      un. un. eapply wp_mono; [eapply compute_final; [exact Q6|eapply mv_le; [exact M62|exact Me]|eapply uw_le; [exact M61|exact H6]]|].
      intros w7 [q7 o7] L7 [Q7 O7]. cbn [fst snd] in *. pose proof (le_trans _ _ _ L7 M61) as M71. pose proof (le_trans _ _ _ L7 M62) as M72.
      un. un. eapply wp_mono; [eapply add2_wp; [exact Q7|eapply uw_le; [exact M71|exact H7]|eapply uw_le; [exact M72|exact Uf]]|].
      intros w8 [q8 o8] L8 [Q8 O8]. cbn [fst snd] in *. pose proof (le_trans _ _ _ L8 M71) as M81. pose proof (le_trans _ _ _ L8 M72) as M82.
      un. un. eapply wp_mono; [eapply add2_wp; [exact Q8|eapply uw_le; [exact M81|exact H8]|eapply uw_le; [exact M82|exact Ug]]|].
      intros w9 [q9 o9] L9 [Q9 O9]. cbn [fst snd] in *. pose proof (le_trans _ _ _ L9 M81) as M91. pose proof (le_trans _ _ _ L9 M82) as M92.
      un. un. eapply wp_mono; [eapply add2_wp; [exact Q9|eapply uw_le; [exact M91|exact H9]|eapply uw_le; [exact M92|exact Uh]]|].
      intros w10 [q10 o10] L10 [Q10 O10]. cbn [fst snd] in *. pose proof (le_trans _ _ _ L10 M91) as M101. pose proof (le_trans _ _ _ L10 M92) as M102.
      un. eapply wp_mono; [eapply R_drop; exact Q10|]. intros w11 [] L11 Q11. apply wp_ret. split; [exact Q11|].
      unfold compress. cbv zeta. rewrite <- EW, El. cbn [combine map fst snd].
      pose proof (le_trans _ _ _ L11 L10) as N9. pose proof (le_trans _ _ _ N9 L9) as N8. pose proof (le_trans _ _ _ N8 L8) as N7.
      pose proof (le_trans _ _ _ N7 L7) as N6. pose proof (le_trans _ _ _ N6 L6) as N5. pose proof (le_trans _ _ _ N5 L5) as N4.
      pose proof (le_trans _ _ _ N4 L4) as N3.
      apply Forall2_cons; [eapply uw_le; [exact N3|exact O3]|]. apply Forall2_cons; [eapply uw_le; [exact N4|exact O4]|].
      apply Forall2_cons; [eapply uw_le; [exact N5|exact O5]|]. apply Forall2_cons; [eapply uw_le; [exact N6|exact O6]|].
      apply Forall2_cons; [eapply uw_le; [exact N7|exact O7]|]. apply Forall2_cons; [eapply uw_le; [exact N8|exact O8]|].
      apply Forall2_cons; [eapply uw_le; [exact N9|exact O9]|]. apply Forall2_cons; [eapply uw_le; [exact L11|exact O10]|]. apply Forall2_nil.
Qed.

(** ** The whole hash *)
Definition blk_inv (blocks : list (list bool)) (w0 : World) (k : nat) (w : World) (cur : list u32) : Prop :=
  le w w0 /\ qi w mq_new /\ exists hs, Forall2 (uw w) cur hs /\ length hs = 8%nat /\
  hs = fold_left (fun h b => compress h (map bits_to_Z (chunks 16 32 b))) (firstn k blocks) H0.

Lemma sha_wp w ins vs : qi w mq_new -> (length ins mod 8 = 0)%nat -> Forall2 (bi w) ins vs ->
  wp w (sha256_r1cs ins) (fun w' outs => qi w' mq_new /\ Forall2 (bo w') outs (sha256 vs)).
Proof.
  intros Hq L8 Hi. unfold sha256_r1cs. rewrite L8. cbn [Nat.eqb negb].
  assert (Hp : Forall2 (bi w) (sha_pad ins) (pad vs)) by (apply pad_F2; eauto).
  pose proof (Forall2_length _ _ _ Hp) as Lp.
  assert (LP : exists n, length (pad vs) = (512 * n)%nat) by (apply (padding_length vs); now apply padding_pad).
  destruct LP as [n LP]. rewrite Lp in *.
  set (bs := chunks (length (pad vs)) 512 (sha_pad ins)). set (cs := chunks (length (pad vs)) 512 (pad vs)).
  assert (Fb : Forall2 (Forall2 (bi w)) bs cs) by now apply F2_chunks.
  destruct (chunks_lengths 512 n (sha_pad ins) (length (pad vs)) ltac:(lia) ltac:(lia) ltac:(lia)) as [Ln Fl]. fold bs in Ln, Fl.
  un. eapply wp_mono; [apply (wp_fold _ _ (0%nat, []) (blk_inv cs w))|].
  - split; [apply le_refl|]. split; [exact Hq|]. exists H0. split; [|split; reflexivity].
    pose proof H0_range as F. clear -F Hq R_const. induction F; cbn [map]; constructor; eauto.
  - rewrite combine_length, seq_length, Nat.min_id. intros k w1 cur Hk (L1 & Q1 & hs & Hu & Lh & Eh).
    rewrite combine_nth by (now rewrite seq_length). cbn [fst snd].
    pose proof (Forall2_length _ _ _ Fb) as Lbc.
    un. destruct (F2_nth _ _ _ [] k Fb ltac:(lia)) as (b & Eb & Hb).
    assert (Nb : nth k bs [] = b) by (apply nth_error_nth; exact Eb). rewrite Nb.
    assert (Lb : length b = 512%nat).
    { rewrite Forall_forall in Fl. apply Fl. rewrite <- Nb. apply nth_In. exact Hk. }
    eapply wp_mono; [apply (compress_wp w1 b (nth k cs []) cur hs); auto; eapply bis_le; eauto|].
    intros w2 o L2 [Q2 Ho]. split; [eapply le_trans; eauto|]. split; [exact Q2|]. eexists. split; [exact Ho|].
    split; [|rewrite (firstn_S _ []) by lia; rewrite fold_left_app; cbn [fold_left]; now rewrite Eh].
    apply compress_length. exact Lh.
  - rewrite combine_length, seq_length, Nat.min_id. intros w1 cur _ (L1 & Q1 & hs & Hu & Lh & Eh).
    rewrite firstn_all2 in Eh by (rewrite <- (Forall2_length _ _ _ Fb); lia). apply wp_ret. split; [exact Q1|].
    unfold sha256. cbv zeta. fold cs. rewrite <- Eh. clear -Q1 Hu R_out. induction Hu; cbn [flat_map]; [constructor|].
    apply Forall2_app; auto.
Qed.
End Logic.
