(** The honest run of the median check. *)
From Coq Require Import ZArith Znumtheory Bool String List Lia Setoid Morphisms Permutation Sorted ZifyBool ZifyNat.
From Verif.Model Require Import Base CS Bellpepper Util Poly Bignat Ints Median.
From Verif.Spec Require Import Spec.
From Verif.Proofs Require Import Field Arith Convert Limbs Wp Lc BitNum BoolP BignatEq MedianP.
Import ListNotations.
Local Open Scope string_scope.
Local Open Scope Z_scope.

Section Median.
Context {E : Env} {W : Wf E}.

Lemma num_bits_above n : 2 ^ Z.of_nat n <= modulus -> (n < NUM_BITS)%nat.
Proof.
  intros H. destruct (Nat.lt_ge_cases n NUM_BITS) as [|C]; auto. exfalso.
  pose proof modulus_bits as [_ B]. apply Nat2Z.inj_le in C. pose proof (Z.pow_le_mono_r 2 _ _ eq_refl C). lia.
Qed.

(** The comparison as a statement about integers. *)
Lemma cmp_int n X Y : 0 <= X + 2 ^ (Z.of_nat n + 1) - Y < modulus ->
  (fsub (fadd (fmk X) (fmk (2 ^ (Z.of_nat n + 1)))) (fmk Y) <? 2 ^ Z.of_nat (1 + n)) = (X <? Y).
Proof.
  intros H. assert (HE : fsub (fadd (fmk X) (fmk (2 ^ (Z.of_nat n + 1)))) (fmk Y) = X + 2 ^ (Z.of_nat n + 1) - Y).
  { apply canon_eqp; [apply fsub_canon|split; lia|]. unfold fsub, fadd. rewrite !eqp_fmk. reflexivity. }
  rewrite HE. replace (Z.of_nat (1 + n)) with (Z.of_nat n + 1) by lia.
  destruct (Z.ltb_spec X Y); [apply Z.ltb_lt|apply Z.ltb_ge]; lia.
Qed.

Section Rho.
Context (rho : assignment) (one : rho ONE = 1).

Lemma less_than_int a b n X Y : is_an rho a (fmk X) -> is_an rho b (fmk Y) -> (n <= 126)%nat -> (n < NUM_BITS)%nat ->
  0 <= X + 2 ^ (Z.of_nat n + 1) - Y < modulus -> hwp rho (less_than a b n) (fun r => is_bool rho r (X <? Y)).
Proof.
  intros Ha Hb Hn HN H. eapply hwp_mono; [apply (less_than_hwp rho one a b n _ _ _ Ha Hb (zero_shift_low n Hn) HN)|].
  cbv beta. intros r. now rewrite cmp_int.
Qed.
Lemma leq_int a b n X Y : is_an rho a (fmk X) -> is_an rho b (fmk Y) -> (n <= 126)%nat -> (n < NUM_BITS)%nat ->
  0 <= X + 2 ^ (Z.of_nat n + 1) - (Y + 1) < modulus -> hwp rho (leq a b n) (fun r => is_bool rho r (X <=? Y)).
Proof.
  intros Ha Hb Hn HN H. eapply hwp_mono; [apply (leq_hwp rho one a b n _ _ _ Ha Hb (zero_shift_low n Hn) HN)|].
  cbv beta. intros r. replace (fadd (fmk Y) fone) with (fmk (Y + 1)).
  - rewrite cmp_int; auto. replace (X <? Y + 1) with (X <=? Y) by lia. auto.
  - unfold fadd. apply eqp_eq. rewrite !eqp_fmk, fone_1. reflexivity.
Qed.

Lemma an_add_hwp a b X Y : is_an rho a (fmk X) -> is_an rho b (fmk Y) ->
  hwp rho (an_add a b) (fun r => is_an rho r (fmk (X + Y))).
Proof.
  intros (Va & Ca & Ha) (Vb & Cb & Hb). unfold an_add. rewrite Va, Vb. cbn [grab rbind].
  assert (HE : fadd (fmk X) (fmk Y) = fmk (X + Y)) by (unfold fadd; apply eqp_eq; rewrite !eqp_fmk; reflexivity).
  rewrite HE. hstep. hstep; [reflexivity|]. intros x Hx. hstep. hstep.
  { lcs. rewrite one, Ha, Hb, Hx, !eqp_fmk. ering. }
  hstep. split; auto. split; [apply fmk_canon|]. cbn [an_var]. now rewrite Hx.
Qed.
Lemma reverse_hwp a b c X Y x : is_an rho a (fmk X) -> is_an rho b (fmk Y) -> is_bool rho c x ->
  hwp rho (an_conditionally_reverse a b c)
    (fun r => is_an rho (fst r) (fmk (if x then Y else X)) /\ is_an rho (snd r) (fmk (if x then X else Y))).
Proof.
  intros (Va & Ca & Ha) (Vb & Cb & Hb) (Vc & Hc). unfold an_conditionally_reverse. rewrite Va, Vb, Vc. cbn [grab rbind].
  assert (Hc' : eqp (lc_eval rho (bool_lc c 1)) (Z.b2z x)) by exact Hc.
  hstep. hstep. eapply (an_alloc_hwp _ _ (fmk (if x then Y else X))); [destruct x; reflexivity|]. intros u Hu. cbn [an_var].
  hstep. hstep. { lcs. rewrite Hc', Ha, Hb, Hu. destruct x; cbn [Z.b2z]; ering. }
  hstep. hstep. eapply (an_alloc_hwp _ _ (fmk (if x then X else Y))); [destruct x; reflexivity|]. intros v Hv. cbn [an_var].
  hstep. hstep. { lcs. rewrite Hc', Ha, Hb, Hv. destruct x; cbn [Z.b2z]; ering. }
  hstep. cbn [fst snd]. split; (split; [reflexivity|split; [apply fmk_canon|cbn [an_var]; now rewrite ?Hu, ?Hv]]).
Qed.

Definition an_value (p : nat * allocated_num) : Z := match an_val (snd p) with Some v => v | None => 0 end.
Definition below (m : Z) (l : list Z) : Z := Z.of_nat (count (fun t => t <? m) l).
Definition above (m : Z) (l : list Z) : Z := Z.of_nat (count (fun t => m <? t) l).
Definition same (m : Z) (l : list Z) : Z := Z.of_nat (count (fun t => t =? m) l).

Definition median_inv (m : Z) (done : list (nat * allocated_num)) (s : bp_num * allocated_num) : Prop :=
  let vs := map an_value done in
  bpn_val (fst s) = Some (fmk (same m vs)) /\ is_an rho (snd s) (fmk (below m vs - above m vs)).

Lemma median_step_hwp med m done s q v : is_an rho med (fmk m) -> 0 <= m < 2 ^ 32 -> is_an rho (snd q) v -> 0 <= v < 2 ^ 32 ->
  2 ^ 34 < modulus -> median_inv m done s -> hwp rho (median_step med s q) (median_inv m (done ++ [q])).
Proof.
  intros Hm Rm Hv Rv HP [I1 I2]. destruct s as [occ sd]. destruct q as [i ft]. cbn [fst snd] in *.
  assert (Cm : canon m) by (split; lia). assert (Cv : canon v) by (split; lia).
  assert (HN : (32 < NUM_BITS)%nat) by (apply num_bits_above; change (Z.of_nat 32) with 32; lia).
  assert (Hv' : is_an rho ft (fmk v)) by (now rewrite fmk_id).
  assert (EV : an_value (i, ft) = v) by (unfold an_value; cbn [snd]; now rewrite (proj1 Hv)).
  unfold median_step. rewrite (fmk_id m Cm) in Hm.
  do 3 hstep. eapply hwp_mono; [apply (equals_hwp rho one _ _ _ _ Hm Hv)|]. cbv beta. intros eqb Heq.
  rewrite <- (fmk_id m Cm) in Hm.
  do 3 hstep. eapply hwp_mono; [apply (less_than_int _ _ 32 m v Hm Hv'); try lia|].
  cbv beta. intros ltb Hlt.
  rewrite (proj1 Heq), (proj1 Hlt). cbn [unwrap rbind].
  assert (HD : fmul (fsub (fsub fone (from_u64 (z_of_bool (m <? v)))) (from_u64 (z_of_bool (m <? v)))) (fsub fone (from_u64 (z_of_bool (m =? v))))
    = fmk (Z.b2z (v <? m) - Z.b2z (m <? v))).
  { unfold from_u64, fmul, fsub. apply eqp_eq. rewrite !eqp_fmk, fone_1.
    destruct (Z.ltb_spec m v), (Z.ltb_spec v m), (Z.eqb_spec m v); try lia; cbn [z_of_bool Z.b2z]; ering. }
  do 3 hstep. eapply an_alloc_hwp; [reflexivity|]. intros ds Hds. rewrite HD in *.
  hstep. cbn [lift]. hstep.
  do 3 hstep. eapply hwp_mono; [apply (ab_alloc_hwp rho one)|]. cbv beta. intros eb [Veb Heb].
  do 3 hstep. eapply an_alloc_hwp; [reflexivity|]. intros l2 Hl2. cbn [an_var].
  hstep. hstep.
  { apply wire_is in Heb. lcs. rewrite one, Heb, Hl2, Hds. unfold from_u64. rewrite !eqp_fmk.
    destruct (Z.ltb_spec m v), (Z.ltb_spec v m), (Z.eqb_spec m v); try lia; cbn [z_of_bool Z.b2z]; ering. }
  assert (Ids : is_an rho (mkAN (Some (fmk (Z.b2z (v <? m) - Z.b2z (m <? v)))) ds) (fmk (Z.b2z (v <? m) - Z.b2z (m <? v)))).
  { split; auto. split; [apply fmk_canon|]. cbn [an_var]. now rewrite Hds. }
  do 3 hstep. eapply hwp_mono; [apply (an_add_hwp _ _ _ _ I2 Ids)|]. cbv beta. intros sd' Hsd.
  hstep. unfold median_inv. cbn [fst snd]. rewrite map_app. cbn [map]. rewrite EV. unfold same, below, above.
  rewrite !count_app, !count_cons. cbn [count filter length]. split.
  - unfold bp_add_bool. cbn [bpn_val]. rewrite I1, (proj1 Heq). unfold same. f_equal.
    destruct (Z.eqb_spec m v), (Z.eqb_spec v m); try lia.
    + unfold fadd. apply eqp_eq. rewrite !eqp_fmk, fone_1. rewrite Nat2Z.inj_add. reflexivity.
    + f_equal. lia.
  - unfold below, above in Hsd. clear -Hsd. set (c1 := count _ _) in *. set (c2 := count _ _) in *.
    match type of Hsd with is_an _ _ (fmk ?a) => match goal with |- is_an _ _ (fmk ?b) => replace b with a; auto end end.
    destruct (Z.ltb_spec v m), (Z.ltb_spec m v); cbn [Z.b2z]; lia.
Qed.

(** Everything before the final comparison. *)
Definition median_prefix (ts : list Z) (median : Z) : prog (allocated_num * allocated_num) :=
  let! fe_median := unwrap_prog (ns (Nm "median") (an_alloc (Ok (from_u64 median)))) in
  let! fe_timestamps := mapM (fun p =>
     unwrap_prog (ns (Nmi "timestamp " (fst p) "") (an_alloc (Ok (from_u64 (snd p))))))
     (combine (seq 0 (List.length ts)) ts) in
  let! sign_diff0 := unwrap_prog (ns (Nm "sign_diff") (an_alloc (Ok (from_u64 0)))) in
  let! (n_occ, sign_diff) := foldM (median_step fe_median)
     (combine (seq 0 (List.length fe_timestamps)) fe_timestamps) (bp_zero, sign_diff0) in
  let! const_12 := unwrap_prog (ns (Nm "max positive sign_diff") (an_alloc (Ok (from_u64 12)))) in
  let! is_positive := unwrap_prog (ns (Nm "is_pos") (less_than sign_diff const_12 32)) in
  let! neg_sign_diff := unwrap_prog (ns (Nm "Negative of sign_diff") (an_alloc
     (let? v := unwrap (an_val sign_diff) in Ok (fsub fzero v)))) in
  let! _ := enforce (Nm "(sign_diff + neg_sign_diff) * 1 == 0")
     (lc_add (lc_var (an_var sign_diff)) (lc_var (an_var neg_sign_diff)))
     (lc_var ONE) lc_zero in
  let! (abs_sign_diff, _) := unwrap_prog (ns (Nm "absolute value")
     (an_conditionally_reverse sign_diff neg_sign_diff is_positive)) in
  let! const_1 := unwrap_prog (ns (Nm "increment by 1") (an_alloc (Ok fone))) in
  let! lhs := unwrap_prog (ns (Nm "LHS of inequality") (an_add abs_sign_diff const_1)) in
  let! fe_median_occ := unwrap_prog (ns (Nm "fe_median") (an_alloc (unwrap (bpn_val n_occ)))) in
  Ret (lhs, fe_median_occ).

Lemma run_ext {A B} wit (m : prog A) (f g : A -> prog B) : (forall a s, run wit (f a) s = run wit (g a) s) ->
  forall s, run wit (bind m f) s = run wit (bind m g) s.
Proof. intros H s. rewrite !run_bind. destruct (run wit m s) as [[a|?|] ?]; auto. Qed.
Lemma run_assoc {A B C} wit (m : prog A) (f : A -> prog B) (g : B -> prog C) s :
  run wit (bind (bind m f) g) s = run wit (bind m (fun a => bind (f a) g)) s.
Proof. rewrite !run_bind. destruct (run wit m s) as [[a|?|] ?]; auto. now rewrite run_bind. Qed.
Lemma median_prefix_run wit ts m s :
  run wit (verify_median_timestamp ts m) s =
  run wit (bind (median_prefix ts m) (fun r => ns (Nm "median leq") (leq (fst r) (snd r) 32))) s.
Proof.
  unfold verify_median_timestamp, median_prefix.
  repeat (rewrite run_assoc; apply run_ext; clear s; intros ? s; try match goal with q : (_ * _)%type |- _ => destruct q end).
  reflexivity.
Qed.

Definition median_lhs (m : Z) (ts : list Z) : Z :=
  let d := below m ts - above m ts in if d <? 12 then 1 - d else 1 + d.

Lemma is_an_mk v x : canon v -> rho x = v -> is_an rho (mkAN (Some v) x) v.
Proof. intros C H. split; auto. split; auto. cbn [an_var]. now rewrite H. Qed.

Lemma median_prefix_hwp ts m : 0 <= m < 2 ^ 32 -> Forall (fun t => 0 <= t < 2 ^ 32) ts -> Z.of_nat (length ts) < 2 ^ 32 -> 2 ^ 34 < modulus ->
  hwp rho (median_prefix ts m) (fun r => is_an rho (fst r) (fmk (median_lhs m ts)) /\ is_an rho (snd r) (fmk (same m ts))).
Proof.
  intros Rm Rt HL HP. unfold median_prefix.
  assert (HN : (32 < NUM_BITS)%nat) by (apply num_bits_above; change (Z.of_nat 32) with 32; lia).
  do 3 hstep. eapply an_alloc_hwp; [reflexivity|]. intros xm Hxm.
  assert (Im : is_an rho (mkAN (Some (from_u64 m)) xm) (fmk m)) by (apply is_an_mk; auto; apply fmk_canon).
  hstep. apply (hwp_mapM _ _ (fun (q : nat * Z) a => is_an rho a (snd q))).
  { intros [i t] Hin. do 2 hstep. eapply an_alloc_hwp; [reflexivity|]. intros x Hx. cbn [snd] in *.
    apply in_combine_r in Hin. rewrite Forall_forall in Rt. apply Rt in Hin.
    assert (C : canon t) by (split; lia). unfold from_u64 in *. rewrite (fmk_id t C) in *. now apply is_an_mk. }
  intros fts Hfts.
  do 3 hstep. eapply an_alloc_hwp; [reflexivity|]. intros x0 Hx0.
  assert (HF : Forall2 (is_an rho) fts ts).
  { clear -Hfts. revert Hfts. generalize 0%nat. revert fts. induction ts as [|t ts IH]; intros fts k H; cbn [length seq combine] in H; inversion H; subst; constructor; eauto. }
  assert (HV : map an_value (combine (seq 0 (length fts)) fts) = ts).
  { clear -HF. generalize 0%nat. induction HF as [|a t fts ts H HF IH]; intros k; [reflexivity|]. cbn [length seq combine map].
    rewrite IH. f_equal. unfold an_value. cbn [snd]. now rewrite (proj1 H). }
  hstep. apply (hwp_foldM _ _ (median_inv m) _ []).
  { unfold median_inv. cbn [map fst snd]. unfold same, below, above. cbn [count filter length]. split; [reflexivity|].
    apply is_an_mk; auto. apply fmk_canon. }
  { intros pre q suf st Heq I. assert (Hin : In q (combine (seq 0 (length fts)) fts)) by (rewrite app_nil_l in Heq; rewrite Heq; apply in_or_app; right; now left).
    assert (HQ : exists v, is_an rho (snd q) v /\ 0 <= v < 2 ^ 32).
    { destruct q as [i a]. apply in_combine_r in Hin. cbn [snd]. clear -HF Rt Hin. induction HF; [destruct Hin|].
      inversion Rt; subst. destruct Hin as [<-|Hin]; eauto. }
    destruct HQ as (v & V1 & V2). eapply median_step_hwp; eauto. }
  intros [occ sd] [I1 I2]. rewrite app_nil_l, HV in I1, I2. cbn [fst snd] in I1, I2.
  pose proof (count_split m ts) as CS. unfold same, below, above in *.
  set (L := count (fun t => t <? m) ts) in *. set (G := count (fun t => m <? t) ts) in *. set (Q := count (fun t => t =? m) ts) in *.
  set (d := Z.of_nat L - Z.of_nat G) in *.
  do 3 hstep. eapply an_alloc_hwp; [reflexivity|]. intros x12 Hx12.
  assert (I12 : is_an rho (mkAN (Some (from_u64 12)) x12) (fmk 12)) by (apply is_an_mk; auto; apply fmk_canon).
  do 3 hstep. eapply hwp_mono; [apply (less_than_int _ _ 32 d 12 I2 I12); try lia|].
  cbv beta. intros pos Hpos.
  rewrite (proj1 I2). cbn [unwrap rbind].
  do 3 hstep. eapply an_alloc_hwp; [reflexivity|]. intros xn Hxn.
  assert (HE : fsub fzero (fmk d) = fmk (- d)) by (unfold fsub; apply eqp_eq; rewrite !eqp_fmk; reflexivity).
  rewrite HE in *.
  assert (In' : is_an rho (mkAN (Some (fmk (- d))) xn) (fmk (- d))) by (apply is_an_mk; auto; apply fmk_canon).
  hstep. hstep. { destruct I2 as (_ & _ & I2). lcs. cbn [an_var]. rewrite I2, Hxn, one, !eqp_fmk. ering. }
  do 3 hstep. eapply hwp_mono; [apply (reverse_hwp _ _ _ _ _ _ I2 In' Hpos)|]. cbv beta. intros [ab ab'] [Hab _]. cbn [fst] in Hab.
  do 3 hstep. eapply an_alloc_hwp; [reflexivity|]. intros x1 Hx1.
  assert (I1' : is_an rho (mkAN (Some fone) x1) (fmk 1)).
  { replace (fmk 1) with fone by reflexivity. apply is_an_mk; auto. apply fmk_canon. }
  do 3 hstep. eapply hwp_mono; [apply (an_add_hwp _ _ _ _ Hab I1')|]. cbv beta. intros lhs Hlhs.
  rewrite I1. cbn [unwrap].
  do 3 hstep. eapply an_alloc_hwp; [reflexivity|]. intros xo Hxo. hstep. cbn [fst snd].
  split; [|apply is_an_mk; auto; apply fmk_canon].
  unfold median_lhs, below, above. fold L G. fold d.
  replace (if d <? 12 then 1 - d else 1 + d) with ((if d <? 12 then - d else d) + 1); auto. destruct (d <? 12); ring.
Qed.

End Rho.
End Median.
