(** Bits of words, the SHA-256 gadget and the previous-hash check. *)
From Coq Require Import ZArith Znumtheory Bool String List Lia Setoid Morphisms ZifyBool ZifyNat.
From Verif.Model Require Import Base Sha256 CS Bellpepper Util Poly Bignat Ints Median Difficulty.
From Verif.Spec Require Import Spec SpecHeader.
From Verif.Proofs Require Import Field Arith Convert Limbs Wp Lc BitNum PolyP BoolP BignatEq TopBignat1 TopBignat2 TopGadget Shp MedianP MedianV TopDifficulty.
Import ListNotations.
Local Open Scope string_scope.
Local Open Scope Z_scope.
Local Open Scope list_scope.

(** ** Lengths *)
Lemma round_length s kw : List.length s = 8%nat -> List.length (round s kw) = 8%nat.
Proof. intros H. unfold round. do 9 (destruct s as [|? s]; try exact H). Qed.
Lemma rounds_length l : forall s, List.length s = 8%nat -> List.length (fold_left round l s) = 8%nat.
Proof. induction l as [|a l IH]; intros s H; auto. cbn [fold_left]. apply IH, round_length, H. Qed.
Lemma compress_length h b : List.length h = 8%nat -> List.length (compress h b) = 8%nat.
Proof. intros H. unfold compress. rewrite map_length, combine_length, rounds_length by auto. now rewrite H. Qed.
Lemma Z_to_bits_length n x : List.length (Z_to_bits n x) = n.
Proof. induction n; simpl; auto. Qed.
Lemma sha256_length m : List.length (sha256 m) = 256%nat.
Proof.
  unfold sha256. generalize (chunks (List.length (pad m)) 512 (pad m)). intros bs.
  assert (H : forall h, List.length h = 8%nat -> List.length (fold_left (fun h b => compress h (map bits_to_Z (chunks 16 32 b))) bs h) = 8%nat).
  { induction bs as [|b bs IH]; intros h H; auto. cbn [fold_left]. apply IH, compress_length, H. }
  specialize (H H0 eq_refl). revert H. generalize (fold_left (fun h b => compress h (map bits_to_Z (chunks 16 32 b))) bs H0). intros h H.
  do 9 (destruct h as [|? h]; try discriminate H). cbn [flat_map]. rewrite !app_length, !Z_to_bits_length. reflexivity.
Qed.
Lemma word_bits_length x : List.length (word_bits x) = 64%nat.
Proof. unfold word_bits. now rewrite map_length, seq_length. Qed.
Lemma words_bits_length ws : List.length (words_bits ws) = (64 * List.length ws)%nat.
Proof. induction ws as [|w ws IH]; cbn [words_bits flat_map List.length]; [reflexivity|]. rewrite app_length, word_bits_length. fold (words_bits ws). lia. Qed.

Lemma seq_nth_map {A} (d : A) : forall l n, map (fun i => nth (i - n) l d) (seq n (List.length l)) = l.
Proof.
  induction l as [|a l IH]; intros n; auto. cbn [List.length seq map]. rewrite Nat.sub_diag. f_equal.
  rewrite <- (IH (S n)) at 2. apply map_ext_in. intros i Hi. apply in_seq in Hi. now replace (i - n)%nat with (S (i - S n)) by lia.
Qed.
Lemma word_bits_rev x : rev (map (fun i => Z.testbit x (Z.of_nat i)) (seq 0 64)) = word_bits x.
Proof. reflexivity. Qed.

Lemma F2_impl {A B} (R S : A -> B -> Prop) l l' : (forall a b, R a b -> S a b) -> Forall2 R l l' -> Forall2 S l l'.
Proof. intros H F. induction F; constructor; auto. Qed.

Section HashP.
Context {E : Env} {W : Wf E}.

Definition is_is (b : Boolean) : Prop := match b with BIs _ => True | _ => False end.

Section Rho.
Context (rho : assignment) (one : rho ONE = 1).

(** What the gadgets return: allocated bits carrying [vs] with recorded values [os]. *)
Definition bits_are (bs : list Boolean) (vs : list bool) : Prop := Forall2 (wire_bool rho) bs vs /\ Forall is_is bs.

Lemma bits_app a b va vb : bits_are a va -> bits_are b vb -> bits_are (a ++ b) (va ++ vb).
Proof. intros [H1 H2] [H3 H4]. split; [now apply Forall2_app|now apply Forall_app]. Qed.
Lemma Forall2_rev {A B} (R : A -> B -> Prop) : forall l l', Forall2 R l l' -> Forall2 R (rev l) (rev l').
Proof. intros l l' H. induction H; simpl; auto. apply Forall2_app; auto. Qed.
Lemma bits_rev a va : bits_are a va -> bits_are (rev a) (rev va).
Proof. intros [H1 H2]. split; [now apply Forall2_rev|now apply Forall_rev]. Qed.
Lemma bits_len a va : bits_are a va -> List.length a = List.length va.
Proof. intros [H _]. eapply Forall2_length; eauto. Qed.

Lemma u64_awp md v bs : List.length bs = 64%nat -> (md = Honest -> bs = map (fun i => Z.testbit v (Z.of_nat i)) (seq 0 64)) ->
  awp md rho (u64_into_boolean_vec_le v) (map Z.b2z bs)
   (fun r => bits_are r bs /\ map bool_val r = map (fun i => Some (Z.testbit v (Z.of_nat i))) (seq 0 64)).
Proof.
  intros HL Hh. unfold u64_into_boolean_vec_le.
  assert (HF : map Z.b2z bs = flat_map (fun i => [Z.b2z (nth i bs false)]) (seq 0 64)).
  { rewrite <- (seq_nth_map false bs 0) at 1. rewrite HL, map_map. clear.
    induction (seq 0 64) as [|i l IH]; auto. cbn [map flat_map app]. now rewrite Nat.sub_0_r, IH. }
  rewrite HF. eapply (awp_mapM _ _ _ _ (fun i b => wire_bool rho b (nth i bs false) /\ is_is b /\ bool_val b = Some (Z.testbit v (Z.of_nat i)))).
  - intros i Hi. apply in_seq in Hi. apply awp_bind_all. apply awp_ns. eapply awp_mono; [apply ab_alloc_awp; auto|].
    + intros He. rewrite (Hh He). f_equal. rewrite (nth_indep _ false (Z.testbit v (Z.of_nat 0))) by (rewrite map_length, seq_length; lia).
      rewrite (map_nth (fun i => Z.testbit v (Z.of_nat i))). now rewrite seq_nth by lia.
    + intros b [Hv Hw]. split; [reflexivity|]. split; [exact Hw|]. split; [exact I|exact Hv].
  - intros r HR. assert (HR0 : Forall2 (fun i b => wire_bool rho b (nth (i - 0) bs false) /\ is_is b /\ bool_val b = Some (Z.testbit v (Z.of_nat i))) (seq 0 64) r).
    { eapply F2_impl; [|exact HR]. cbv beta. intros i b. now rewrite Nat.sub_0_r. }
    clear HR. split; [split|].
    + rewrite <- (seq_nth_map false bs 0), HL. clear -HR0. induction HR0; constructor; auto. apply H.
    + clear -HR0. induction HR0; constructor; auto. apply H.
    + clear -HR0. induction HR0; cbn [map]; auto. f_equal; auto. apply H.
Qed.

Lemma words_awp md pre : forall n ws bss, Forall2 (fun w bs => List.length bs = 64%nat /\ (md = Honest -> bs = word_bits w)) ws bss ->
  awp md rho (mapM (fun p => let! bs := unwrap_prog (ns (Nmi pre (fst p) "") (u64_into_boolean_vec_le (snd p))) in Ret (rev bs))
     (combine (seq n (List.length ws)) ws)) (map Z.b2z (flat_map (@rev bool) bss))
   (fun r => bits_are (List.concat r) (List.concat bss) /\ map bool_val (List.concat r) = map Some (words_bits ws)).
Proof.
  intros n ws bss HF. revert n. induction HF as [|w bs ws bss [HL Hh] HF IH]; intros n.
  - cbn [List.length combine seq mapM flat_map map]. split; [reflexivity|]. split; [split; constructor|reflexivity].
  - cbn [List.length combine seq mapM flat_map]. rewrite map_app. apply awp_bind. rewrite <- (app_nil_r (map Z.b2z (rev bs))). apply awp_bind.
    cbn [fst snd]. apply awp_unwrap, awp_ns. eapply awp_mono; [apply (u64_awp md w (rev bs))|].
    + now rewrite rev_length.
    + intros He. rewrite (Hh He), <- word_bits_rev, rev_involutive. reflexivity.
    + intros r [HB HV]. split; [reflexivity|]. apply awp_bind_all. eapply awp_mono; [apply IH|]. intros rs [HBs HVs]. split; [reflexivity|].
      cbn [List.concat words_bits flat_map]. fold (words_bits ws). split.
      * apply bits_app; auto. apply bits_rev in HB. now rewrite rev_involutive in HB.
      * rewrite !map_app, map_rev, HV, HVs. f_equal.
Qed.
Lemma words_to_bits_awp md pre ws bss : Forall2 (fun w bs => List.length bs = 64%nat /\ (md = Honest -> bs = word_bits w)) ws bss ->
  awp md rho (words_to_bits pre ws) (map Z.b2z (flat_map (@rev bool) bss))
   (fun r => bits_are r (List.concat bss) /\ map bool_val r = map Some (words_bits ws)).
Proof.
  intros HF. unfold words_to_bits. apply awp_bind_all. eapply awp_mono; [apply words_awp; exact HF|]. intros r H. split; [reflexivity|exact H].
Qed.

Lemma all_some_map {A} (l : list A) : all_some (map Some l) = Some l.
Proof. induction l as [|a l IH]; auto. cbn [map all_some fold_right]. fold (all_some (map Some l)). now rewrite IH. Qed.

Lemma bits_ins ins vs : Forall2 (wire_bool rho) ins vs -> map (fun l => feval rho l =? 1) (map (fun b => bool_lc b 1) ins) = vs.
Proof.
  intros H. induction H as [|b v ins vs Hb H IH]; auto. cbn [map]. f_equal; auto. apply wire_bool_feval in Hb. rewrite Hb. now destruct v.
Qed.

Lemma sha_awp md ins vs : (List.length ins mod 8 = 0)%nat -> Forall2 (wire_bool rho) ins vs -> (md = Honest -> map bool_val ins = map Some vs) ->
  awp md rho (sha256_gadget ins) (map Z.b2z (sha256 vs))
   (fun r => bits_are r (sha256 vs) /\ (md = Honest -> map bool_val r = map Some (sha256 vs))).
Proof.
  intros H8 HI Hh. unfold sha256_gadget. rewrite H8. cbn [Nat.eqb negb].
  set (d := sha256 vs) in *. assert (HL : List.length d = 256%nat) by apply sha256_length.
  assert (HF : map Z.b2z d = flat_map (fun i => [Z.b2z (nth i d false)]) (seq 0 256)).
  { rewrite <- (seq_nth_map false d 0) at 1. rewrite HL, map_map. clear.
    induction (seq 0 256) as [|i l IH]; auto. cbn [map flat_map app]. now rewrite Nat.sub_0_r, IH. }
  rewrite HF. apply awp_bind_all.
  eapply (awp_mapM _ _ _ _ (fun i b => eqp (rho (ab_var b)) (Z.b2z (nth (i - 0) d false)) /\ (md = Honest -> ab_val b = Some (nth (i - 0) d false)))).
  - intros i Hi. apply in_seq in Hi. rewrite Nat.sub_0_r. apply awp_bind_all. astep.
    { intros ->. rewrite (Hh eq_refl), all_some_map. cbn [option_map grab rbind]. fold d. unfold idx.
      rewrite (nth_error_nth' d false) by lia. cbn [unwrap rbind]. now rewrite f_of_bool_b2z. }
    intros x o Hx Hv. split; [reflexivity|]. cbn [ab_var ab_val]. split; [rewrite Hx; reflexivity|]. intros ->. simpl in Hv. subst o.
    cbn [option_map]. f_equal. rewrite <- f_of_bool_b2z. apply bit_of_f_bool.
  - intros r HR. assert (HB : bits_are (map BIs r) d /\ (md = Honest -> map bool_val (map BIs r) = map Some d)).
    { rewrite <- (seq_nth_map false d 0), HL. clear -HR W. split; [split|].
      - induction HR; cbn [map]; constructor; auto. apply wire_is, H.
      - induction r; constructor; [exact I|]. inversion HR; subst. clear -r. induction r; constructor; [exact I|auto].
      - intros He. induction HR as [|i b l r H HR IH]; cbn [map]; auto. f_equal; [apply H, He|apply IH]. }
    cbn [awp]. split; [|split; [reflexivity|exact HB]].
    cbn [csat]. rewrite (bits_ins ins vs HI). fold d. destruct HB as [[HB _] _]. clear -HB one W. 
    revert HB. generalize d. clear d. induction r as [|b r IH]; intros d HB; inversion HB; subst; auto. cbn [map]. f_equal; auto.
    apply wire_bool_feval in H1. rewrite <- H1. reflexivity.
Qed.


(** The prefix of [check_prev_hash] that computes the bits to compare. *)
Definition hash_prefix (prev_block prev_hash : list Z) : prog (list Boolean * list Boolean) :=
  let! hash_vec := words_to_bits "dummy " prev_hash in
  let! preimage_vec := words_to_bits "dummy2 " prev_block in
  let! out_sha256 := unwrap_prog (ns (Nm "SHA 256") (sha256_gadget preimage_vec)) in
  let! out := unwrap_prog (ns (Nm "SHA 256d") (sha256_gadget out_sha256)) in
  Ret (hash_vec, out).
Definition compare_bits (p : list Boolean * list Boolean) : prog unit :=
  iterM (fun p => ignore_err (ns (Nmi "bit " (fst p) "") (bool_enforce_equal (fst (snd p)) (snd (snd p)))))
    (combine (seq 0 (List.length (combine (fst p) (snd p)))) (combine (fst p) (snd p))).
Lemma hash_prefix_run wit blk hsh s : run wit (check_prev_hash blk hsh) s = run wit (bind (hash_prefix blk hsh) compare_bits) s.
Proof.
  unfold check_prev_hash, hash_prefix. do 4 (rewrite run_assoc; apply run_ext; clear s; intros ? s). reflexivity.
Qed.

Definition whole (md : mode) (ws : list Z) (bss : list (list bool)) : Prop :=
  Forall2 (fun w bs => List.length bs = 64%nat /\ (md = Honest -> bs = word_bits w)) ws bss.
Lemma whole_length md ws bss : whole md ws bss -> List.length (List.concat bss) = (64 * List.length ws)%nat.
Proof. intros H. induction H as [|w bs ws bss [H _] F IH]; auto. cbn [List.concat List.length]. rewrite app_length, H, IH. lia. Qed.
Lemma whole_honest ws : whole Honest ws (map word_bits ws).
Proof. induction ws; constructor; auto using word_bits_length. Qed.
Lemma whole_concat ws : List.concat (map word_bits ws) = words_bits ws.
Proof. unfold words_bits. now rewrite flat_map_concat_map. Qed.
Lemma whole_vals md ws bss : whole md ws bss -> md = Honest -> List.concat bss = words_bits ws.
Proof. intros H He. induction H as [|w bs ws bss [_ H] F IH]; auto. cbn [List.concat words_bits flat_map]. now rewrite IH, (H He). Qed.

Lemma sha_unwrap nm md ins vs : (List.length ins mod 8 = 0)%nat -> Forall2 (wire_bool rho) ins vs -> (md = Honest -> map bool_val ins = map Some vs) ->
  awp md rho (unwrap_prog (ns nm (sha256_gadget ins))) (map Z.b2z (sha256 vs))
   (fun r => bits_are r (sha256 vs) /\ (md = Honest -> map bool_val r = map Some (sha256 vs))).
Proof. intros H1 H2 H3. apply awp_unwrap, awp_ns, sha_awp; auto. Qed.

Lemma sha_sha md (l : list Boolean) vs {A} (k : list Boolean -> prog A) (Q : A -> Prop) ys : (List.length l mod 8 = 0)%nat -> bits_are l vs -> (md = Honest -> map bool_val l = map Some vs) ->
  (forall r, bits_are r (sha256d vs) -> (md = Honest -> map bool_val r = map Some (sha256d vs)) -> awp md rho (k r) ys Q) ->
  awp md rho (let! out_sha256 := unwrap_prog (ns (Nm "SHA 256") (sha256_gadget l)) in
              let! out := unwrap_prog (ns (Nm "SHA 256d") (sha256_gadget out_sha256)) in k out)
    (map Z.b2z (sha256 vs) ++ map Z.b2z (sha256d vs) ++ ys) Q.
Proof.
  intros H8 HB HV HK. apply awp_bind. eapply awp_mono; [apply sha_unwrap; [auto|apply HB|auto]|]. intros o [Ho Hov].
  apply awp_bind. eapply awp_mono; [apply (sha_unwrap _ _ _ (sha256 vs)); [|apply Ho|auto]|].
  - rewrite (bits_len _ _ Ho), sha256_length. reflexivity.
  - intros r [Hr Hrv]. apply HK; auto.
Qed.
Lemma mod8_64 n : ((64 * n) mod 8 = 0)%nat.
Proof. replace (64 * n)%nat with (8 * n * 8)%nat by lia. apply Nat.mod_mul. lia. Qed.

Lemma hash_prefix_awp md blk hsh bb hb : whole md blk bb -> whole md hsh hb ->
  exists ys, awp md rho (hash_prefix blk hsh) ys (fun p => bits_are (fst p) (List.concat hb) /\ bits_are (snd p) (sha256d (List.concat bb))).
Proof.
  intros Hb Hh. eexists. unfold hash_prefix. apply awp_bind. eapply awp_mono; [apply words_to_bits_awp; exact Hh|]. intros h [H1 H2].
  apply awp_bind. eapply awp_mono; [apply words_to_bits_awp; exact Hb|]. intros b [H3 H4].
  apply (sha_sha md b (List.concat bb)) with (ys := []); auto.
  - rewrite (bits_len _ _ H3), (whole_length _ _ _ Hb). apply mod8_64.
  - intros He. now rewrite H4, (whole_vals _ _ _ Hb He).
  - intros r Hr _. split; [reflexivity|]. split; auto.
Qed.

Lemma ignore_eq_run wit nm a b s : is_is a -> is_is b -> exists s', run wit (ignore_err (ns nm (bool_enforce_equal a b))) s = (Ok tt, s') /\
  st_in s' = st_in s /\ st_aux s' = st_aux s /\
  forall r, sat r s' <-> sat r s /\ feval r (bool_lc a 1) = feval r (bool_lc b 1).
Proof.
  destruct a as [a|a|a], b as [b|b|b]; try contradiction. intros _ _. eexists. split; [reflexivity|]. split; [reflexivity|]. split; [reflexivity|].
  intros r. rewrite sat_pop, sat_push_con. change (sat r (push_ns nm s)) with (sat r s). rewrite eq_con. tauto.
Qed.

Lemma compare_run wit : forall l n s, Forall (fun p => is_is (fst p) /\ is_is (snd p)) l ->
  exists s', run wit (iterM (fun p => ignore_err (ns (Nmi "bit " (fst p) "") (bool_enforce_equal (fst (snd p)) (snd (snd p)))))
    (combine (seq n (List.length l)) l)) s = (Ok tt, s') /\ st_in s' = st_in s /\ st_aux s' = st_aux s /\
  forall r, sat r s' <-> sat r s /\ Forall (fun p => feval r (bool_lc (fst p) 1) = feval r (bool_lc (snd p) 1)) l.
Proof.
  induction l as [|[a b] l IH]; intros n s HF.
  - exists s. cbn. split; auto. split; auto. split; auto. intros r. split; [|tauto]. intros H. split; auto.
  - inversion HF as [|? ? [Ha Hb] HF']; subst. cbn [List.length seq combine iterM fst snd] in *.
    destruct (ignore_eq_run wit (Nmi "bit " n "") a b s Ha Hb) as (s1 & R1 & I1 & A1 & S1).
    destruct (IH (S n) s1 HF') as (s2 & R2 & I2 & A2 & S2). exists s2.
    rewrite (run_bind_ok _ _ _ _ _ _ R1). split; [exact R2|]. split; [congruence|]. split; [congruence|].
    intros r. rewrite S2, S1, Forall_cons_iff. cbn [fst snd]. tauto.
Qed.

Lemma combine_is h o : Forall is_is h -> Forall is_is o -> Forall (fun p => is_is (fst p) /\ is_is (snd p)) (combine h o).
Proof.
  intros Hh Ho. apply Forall_forall. intros [a b] Hin. pose proof (in_combine_l _ _ _ _ Hin). pose proof (in_combine_r _ _ _ _ Hin).
  rewrite Forall_forall in Hh, Ho. cbn [fst snd]. auto.
Qed.
Lemma combine_prefix : forall h o hv ov, Forall2 (wire_bool rho) h hv -> Forall2 (wire_bool rho) o ov ->
  (Forall (fun p => feval rho (bool_lc (fst p) 1) = feval rho (bool_lc (snd p) 1)) (combine h o) <-> firstn (List.length ov) hv = firstn (List.length hv) ov).
Proof.
  intros h o hv ov Hh. revert o ov. induction Hh as [|a x h hv Ha Hh IH]; intros o ov Ho.
  - cbn [combine List.length firstn]. rewrite firstn_nil. split; auto.
  - destruct Ho as [|b y o ov Hb Ho]; [cbn; split; auto|]. cbn [combine List.length firstn]. rewrite Forall_cons_iff. cbn [fst snd].
    rewrite (IH o ov Ho). apply wire_bool_feval in Ha, Hb. rewrite Ha, Hb. split.
    + intros [H1 H2]. f_equal; auto. now destruct x, y.
    + intros H. injection H as -> H. split; auto.
Qed.

End Rho.

Lemma top_prev_hash_iff blk hsh s : good s -> exists s', run true (check_prev_hash blk hsh) s = (Ok tt, s') /\
  (sat (asg s') s' <-> firstn 256 (words_bits hsh) = firstn (64 * List.length hsh) (sha256d (words_bits blk))).
Proof.
  intros G. rewrite hash_prefix_run.
  destruct (hwp_run (hash_prefix blk hsh) s (fun rho p => bits_are rho (fst p) (words_bits hsh) /\ bits_are rho (snd p) (sha256d (words_bits blk))) G)
    as ([h o] & s1 & Hr & Hg & _ & HQ).
  { intros rho Hag one. destruct (hash_prefix_awp rho one Honest blk hsh _ _ (whole_honest blk) (whole_honest hsh)) as [ys H].
    rewrite !whole_concat in H. exact (hwp_awp _ _ _ _ H). }
  cbn [fst snd] in HQ. destruct (HQ _ (agree_asg s1)) as [[_ Hh] [_ Ho]].
  destruct (compare_run true _ 0 s1 (combine_is _ _ Hh Ho)) as (s2 & R2 & I2 & A2 & S2).
  exists s2. rewrite (run_bind_ok _ _ _ _ _ _ Hr). split; [exact R2|].
  assert (Ha : agree s1 (asg s2)) by (eapply run_agree; [exact R2|reflexivity|apply agree_asg]).
  rewrite S2. destruct (HQ _ Ha) as [[Wh _] [Wo _]]. rewrite (combine_prefix _ _ _ _ _ Wh Wo).
  unfold sha256d at 1. rewrite sha256_length, words_bits_length. split; [intros [_ H]; exact H|]. intros H. split; [exact (Hg _ Ha)|exact H].
Qed.

(** Words whose bits start with a given bit string. *)
Definition pad_bits (n : nat) (d : list bool) : list (list bool) := map (fun j => map (fun i => nth (64 * j + i) d false) (seq 0 64)) (seq 0 n).
Lemma F2_map_seq {A B} (R : A -> B -> Prop) (f : nat -> B) : (forall a j, R a (f j)) -> forall l n, Forall2 R l (map f (seq n (List.length l))).
Proof. intros H. induction l as [|a l IH]; intros n; cbn [List.length seq map]; constructor; auto. Qed.
Lemma pad_bits_whole md (ws : list Z) d : md <> Honest -> whole md ws (pad_bits (List.length ws) d).
Proof.
  intros Hm. unfold pad_bits, whole. apply F2_map_seq. intros w j. split; [now rewrite map_length, seq_length|intros He; contradiction].
Qed.
Lemma concat_nth (d : list bool) (f : nat -> list bool) : (forall j, List.length (f j) = 64%nat) ->
  (forall j i, (i < 64)%nat -> nth i (f j) false = nth (64 * j + i) d false) ->
  forall k j i, (i < 64 * k)%nat -> nth i (List.concat (map f (seq j k))) false = nth (64 * j + i) d false.
Proof.
  intros HL HN. induction k as [|k IH]; intros j i Hi; [lia|]. cbn [seq map List.concat].
  destruct (Nat.lt_ge_cases i 64) as [H|H].
  - rewrite app_nth1 by (rewrite HL; auto). now apply HN.
  - rewrite app_nth2 by (rewrite HL; auto). rewrite HL, IH by lia. f_equal. lia.
Qed.
Lemma pad_bits_nth n d i : (i < 64 * n)%nat -> nth i (List.concat (pad_bits n d)) false = nth i d false.
Proof.
  intros Hi. unfold pad_bits. apply (concat_nth d) with (j := 0%nat); [| |exact Hi].
  - intros j. now rewrite map_length, seq_length.
  - intros j k Hk. rewrite (nth_indep _ false (nth (64 * j + 0) d false)) by (rewrite map_length, seq_length; auto).
    rewrite (map_nth (fun i => nth (64 * j + i) d false)), seq_nth by auto. reflexivity.
Qed.
Lemma prefix_nth {A} (d : A) l1 l2 : (forall i, (i < List.length l1)%nat -> (i < List.length l2)%nat -> nth i l1 d = nth i l2 d) ->
  firstn (List.length l2) l1 = firstn (List.length l1) l2.
Proof.
  revert l2. induction l1 as [|a l1 IH]; intros l2 H; [cbn [List.length firstn]; now rewrite firstn_nil|].
  destruct l2 as [|b l2]; auto. cbn [List.length firstn]. f_equal.
  - apply (H 0%nat); simpl; lia.
  - apply IH. intros i H1 H2. apply (H (S i)); simpl; lia.
Qed.

Lemma top_prev_hash_unenforced wit blk hsh s s' rho0 : good_for rho0 s ->
  run wit (check_prev_hash blk hsh) s = (Ok tt, s') -> exists rho, same_on s rho rho0 /\ sat rho s'.
Proof.
  intros G Hr. rewrite hash_prefix_run in Hr. destruct (run wit (hash_prefix blk hsh) s) as [[[h o]|?|] s1] eqn:H1; rewrite run_bind, H1 in Hr; try discriminate Hr.
  set (md := md_of wit). assert (Hmd : md <> Honest) by (unfold md; destruct wit; discriminate).
  set (bb0 := pad_bits (List.length blk) []). set (d := sha256d (List.concat bb0)). set (hb := pad_bits (List.length hsh) d).
  assert (HL : List.length d = 256%nat) by apply sha256_length.
  assert (Wb : whole md blk bb0) by (apply pad_bits_whole; auto). assert (Wh : whole md hsh hb) by (apply pad_bits_whole; auto).
  set (ys := map Z.b2z (flat_map (@rev bool) hb) ++ map Z.b2z (flat_map (@rev bool) bb0) ++ map Z.b2z (sha256 (List.concat bb0)) ++ map Z.b2z d ++ []).
  destruct (awp_run wit (hash_prefix blk hsh) s rho0 ys (fun rho p => bits_are rho (fst p) (List.concat hb) /\ bits_are rho (snd p) d) (h, o) s1 G)
    as (rho & K1 & K2 & K3); auto.
  { intros rho _ one. fold md. unfold hash_prefix, ys. apply awp_bind. eapply awp_mono; [apply words_to_bits_awp; auto; exact Wh|]. intros h0 [A1 A2].
    apply awp_bind. eapply awp_mono; [apply words_to_bits_awp; auto; exact Wb|]. intros b [A3 A4].
    apply sha_sha; auto.
    - rewrite (bits_len _ _ _ A3), (whole_length _ _ _ Wb). apply mod8_64.
    - intros He. contradiction.
    - intros r Hr0 _. split; [reflexivity|]. split; auto. }
  cbn [fst snd] in K3. destruct (K3 rho (same_on_refl _ _)) as [[B1 B2] [B3 B4]].
  destruct (compare_run wit _ 0 s1 (combine_is _ _ B2 B4)) as (s2 & R2 & _ & _ & S2).
  unfold compare_bits in Hr. cbn [fst snd] in Hr. rewrite R2 in Hr. injection Hr as <-.
  exists rho. split; auto. apply S2. split; [exact (K2 rho (same_on_refl _ _))|]. apply (combine_prefix _ _ _ _ _ B1 B3).
  apply (prefix_nth false). intros i Hi _. rewrite (whole_length _ _ _ Wh) in Hi. apply pad_bits_nth. lia.
Qed.

End HashP.
