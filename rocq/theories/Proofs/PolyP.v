(** src/mp/poly.rs. *)
From Coq Require Import ZArith Bool List Lia Setoid Morphisms ZifyBool ZifyNat.
From Verif.Model Require Import Base CS Bellpepper Util Poly.
From Verif.Spec Require Import Spec.
From Verif.Proofs Require Import Field Arith Convert Wp Lc.
Import ListNotations.
Local Open Scope Z_scope.

Section PolyP.
Context {E : Env} {W : Wf E}.

(** ** Polynomials with many roots *)
(** Quotient of [c + x * l] by [x - r]. *)
Fixpoint synth (r : Z) (l : list Z) : list Z :=
  match l with [] => [] | d :: l' => value_of r l :: synth r l' end.

Lemma synth_length r l : length (synth r l) = length l.
Proof. induction l; simpl; auto. Qed.

Lemma synth_spec r x c l :
  value_of x (c :: l) - value_of r (c :: l) = (x - r) * value_of x (synth r l).
Proof.
  revert c. induction l as [|d l IH]; intros c.
  - cbn [value_of synth]. ring.
  - specialize (IH d). change (value_of x (c :: d :: l)) with (c + x * value_of x (d :: l)).
    change (value_of r (c :: d :: l)) with (c + r * value_of r (d :: l)).
    change (synth r (d :: l)) with (value_of r (d :: l) :: synth r l).
    set (X := value_of x (d :: l)) in *. set (R := value_of r (d :: l)) in *.
    cbn [value_of]. replace X with (R + (x - r) * value_of x (synth r l)) by lia. ring.
Qed.

Lemma synth_zero r l : Forall (eqp 0) (synth r l) -> Forall (eqp 0) l.
Proof.
  induction l as [|d l IH]; intros H; auto.
  change (synth r (d :: l)) with (value_of r (d :: l) :: synth r l) in H.
  inversion H as [|? ? H1 H2]; subst. specialize (IH H2). constructor; auto.
  cbn [value_of] in H1. assert (V : eqp (value_of r l) 0).
  { clear -IH. induction IH as [|y l Hy _ IHl]; [reflexivity|]. cbn [value_of].
    rewrite IHl, <- Hy. apply eqp_ring; ring. }
  rewrite V in H1. rewrite H1. ering.
Qed.

Lemma many_roots : forall xs l, length xs = length l ->
  ForallOrdPairs (fun x y => ~ eqp x y) xs ->
  (forall x, In x xs -> eqp (value_of x l) 0) -> Forall (eqp 0) l.
Proof.
  induction xs as [|r xs IH]; intros [|c l] HL HN HR; try discriminate; auto.
  inversion HN as [|? ? N1 N2]; subst. injection HL as HL.
  assert (Hq : Forall (eqp 0) (synth r l)).
  { apply IH; auto. { now rewrite synth_length. }
    intros x Hx. pose proof (HR x (or_intror Hx)) as Hx0.
    pose proof (HR r (or_introl eq_refl)) as Hr0.
    pose proof (synth_spec r x c l) as S.
    assert (eqp ((x - r) * value_of x (synth r l)) 0) by (rewrite <- S, Hx0, Hr0; reflexivity).
    apply eqp_0_mul in H. destruct H as [H|H]; auto.
    exfalso. rewrite Forall_forall in N1. apply (N1 x Hx). symmetry.
    now apply (proj1 (eqp_sub_0 _ _)). }
  apply synth_zero in Hq. constructor; auto.
  pose proof (HR r (or_introl eq_refl)) as Hr0. cbn [value_of] in Hr0.
  assert (V : eqp (value_of r l) 0).
  { clear -Hq. induction Hq as [|y l Hy _ IHl]; [reflexivity|]. cbn [value_of].
    rewrite IHl, <- Hy. apply eqp_ring; ring. }
  rewrite V in Hr0. rewrite <- Hr0. ering.
Qed.

Lemma points_distinct : forall n o, (0 < o)%nat -> Z.of_nat (o + n) <= modulus ->
  ForallOrdPairs (fun x y => ~ eqp x y) (map (fun k => fmk (Z.of_nat k)) (seq o n)).
Proof.
  induction n; intros o Ho Hn; simpl; constructor.
  - apply Forall_forall. intros x Hx. apply in_map_iff in Hx. destruct Hx as (k & <- & Hk).
    apply in_seq in Hk. rewrite !eqp_fmk. intros H. apply eqp_near in H; lia.
  - apply IHn; lia.
Qed.

Lemma value_of_sub B : forall l1 l2, length l1 = length l2 ->
  value_of B l1 - value_of B l2 = value_of B (map (fun p => fst p - snd p) (combine l1 l2)).
Proof.
  induction l1 as [|a l1 IH]; intros [|b l2] H; try discriminate; auto.
  injection H as H. cbn [combine map value_of fst snd]. rewrite <- IH by auto. ring.
Qed.

Lemma sub_zero_eqp : forall l1 l2, length l1 = length l2 ->
  Forall (eqp 0) (map (fun p => fst p - snd p) (combine l1 l2)) -> Forall2 eqp l1 l2.
Proof.
  induction l1 as [|a l1 IH]; intros [|b l2] H F; try discriminate; constructor.
  - inversion F; subst. symmetry in H2. apply (proj1 (eqp_sub_0 _ _)). exact H2.
  - inversion F; subst. apply IH; auto.
Qed.

(** A polynomial of length [n] that agrees with another at the points 1..n. *)
Lemma interpolate n l1 l2 : length l1 = n -> length l2 = n -> Z.of_nat n < modulus ->
  (forall k, (1 <= k <= n)%nat ->
     eqp (value_of (fmk (Z.of_nat k)) l1) (value_of (fmk (Z.of_nat k)) l2)) ->
  Forall2 eqp l1 l2.
Proof.
  intros H1 H2 Hn H. apply sub_zero_eqp; [congruence|].
  apply (many_roots (map (fun k => fmk (Z.of_nat k)) (seq 1 n))).
  - rewrite !map_length, combine_length, seq_length. lia.
  - apply points_distinct; lia.
  - intros x Hx. apply in_map_iff in Hx. destruct Hx as (k & <- & Hk). apply in_seq in Hk.
    rewrite <- value_of_sub by congruence. apply (proj2 (eqp_sub_0 _ _)). apply H. lia.
Qed.

(** ** Values *)
Lemma eval_from_eqp x : forall cs v acc,
  eqp (eval_from v x cs acc) (acc + v * value_of x cs).
Proof.
  induction cs as [|c cs IH]; intros v acc; cbn [eval_from value_of]; [ering|].
  rewrite IH. feq. ering.
Qed.
Lemma eval_from_canon x : forall cs v acc, canon acc -> canon (eval_from v x cs acc).
Proof. induction cs; intros v acc H; simpl; auto. apply IHcs, fadd_canon. Qed.

Lemma add_at_map k v n g : (k < n)%nat -> forall o,
  add_at k v (map g (seq o n)) =
  Ok (map (fun i => if (i =? o + k)%nat then fadd (g i) v else g i) (seq o n)).
Proof.
  revert k. induction n; intros k Hk o; [lia|]. cbn [seq map].
  destruct k as [|k]; cbn [add_at].
  - rewrite Nat.add_0_r, Nat.eqb_refl. do 2 f_equal. apply map_ext_in. intros i Hi. apply in_seq in Hi.
    destruct (Nat.eqb_spec i o); [lia|auto].
  - rewrite IHn by lia. cbn [rbind]. destruct (Nat.eqb_spec o (o + S k)); [lia|].
    do 2 f_equal. apply map_ext. intros i. now rewrite Nat.add_succ_r.
Qed.

Lemma conv_inner_map a n : forall bs k g, (k + length bs <= n)%nat ->
  (forall i, canon (g i)) ->
  conv_inner k a bs (map g (seq 0 n)) =
  Ok (map (fun i => if (k <=? i)%nat then fmk (g i + a * nth (i - k) bs 0) else g i) (seq 0 n)).
Proof.
  induction bs as [|b bs IH]; intros k g Hk Hg.
  - cbn [conv_inner]. f_equal. apply map_ext. intros i. destruct (Nat.leb_spec k i); auto.
    replace (nth (i - k) [] 0) with 0 by (destruct (i - k)%nat; reflexivity).
    rewrite Z.mul_0_r, Z.add_0_r. symmetry. now apply fmk_id.
  - cbn [conv_inner]. simpl in Hk. rewrite add_at_map by lia. cbn [rbind]. rewrite IH; [|lia|].
    + f_equal. apply map_ext. intros i. cbn [Nat.add].
      destruct (Nat.leb_spec (S k) i), (Nat.leb_spec k i), (Nat.eqb_spec i k); try lia.
      * replace (i - k)%nat with (S (i - S k)) by lia. reflexivity.
      * subst. rewrite Nat.sub_diag. simpl nth. unfold fadd. apply (proj1 (eqp_eq _ _)). now rewrite eqp_fmul.
    + intros i. destruct (_ =? _)%nat; auto using fadd_canon.
Qed.

Lemma conv_outer_map n bs : forall xs k g, (k + length xs + length bs <= S n)%nat ->
  (forall i, canon (g i)) -> (xs = [] \/ (k + length bs <= n)%nat) ->
  conv_outer k xs bs (map g (seq 0 n)) =
  Ok (map (fun i => if (k <=? i)%nat then fmk (g i + conv xs bs (i - k)) else g i) (seq 0 n)).
Proof.
  induction xs as [|a xs IH]; intros k g Hk Hg Hb.
  - cbn [conv_outer]. f_equal. apply map_ext. intros i. rewrite conv_nil_l, Z.add_0_r.
    destruct (k <=? i)%nat; auto. symmetry. now apply fmk_id.
  - cbn [conv_outer]. simpl in Hk. destruct Hb as [Hb|Hb]; [discriminate|].
    rewrite conv_inner_map by auto. cbn [rbind]. rewrite IH; [|lia| |].
    + f_equal. apply map_ext. intros i.
      destruct (Nat.leb_spec (S k) i), (Nat.leb_spec k i); try lia.
      * apply (proj1 (eqp_eq _ _)). rewrite eqp_fmk. apply eqp_ring.
        rewrite conv_cons. replace (i - k)%nat with (S (i - S k)) by lia. ring.
      * assert (i = k) by lia. subst. rewrite Nat.sub_diag, conv_cons. f_equal. ring.
    + intros i. destruct (k <=? i)%nat; auto using fmk_canon.
    + destruct xs as [|x xs]; [now left|right]. simpl in Hk. lia.
Qed.

Lemma map_repeat {A} (a : A) n o : map (fun _ => a) (seq o n) = repeat a n.
Proof. revert o. induction n; intros o; simpl; f_equal; auto. Qed.

Lemma conv_values_ok n xs bs : (length xs + length bs <= S n)%nat ->
  (xs = [] \/ (length bs <= n)%nat) ->
  conv_values n xs bs = Ok (map (fun i => fmk (conv xs bs i)) (seq 0 n)).
Proof.
  intros Hn Hb. unfold conv_values. rewrite <- (map_repeat fzero n 0).
  rewrite conv_outer_map; auto.
  - f_equal. apply map_ext. intros i. cbn [Nat.leb]. now rewrite Nat.sub_0_r.
  - intros i. apply canon_0.
Qed.

(** Congruent lists and convolutions. *)
Lemma Forall2_eqp_nth l1 l2 i : Forall2 eqp l1 l2 -> eqp (nth i l1 0) (nth i l2 0).
Proof.
  intros H. revert i. induction H; intros [|i]; simpl; auto; reflexivity.
Qed.
Lemma sum_n_eqp n f g : (forall i, eqp (f i) (g i)) -> eqp (sum_n n f) (sum_n n g).
Proof. intros H. induction n; simpl; [reflexivity|]. now rewrite IHn, H. Qed.
Lemma conv_eqp a a' b b' k : Forall2 eqp a a' -> Forall2 eqp b b' -> eqp (conv a b k) (conv a' b' k).
Proof.
  intros Ha Hb. unfold conv. apply sum_n_eqp. intros i.
  now rewrite (Forall2_eqp_nth _ _ _ Ha), (Forall2_eqp_nth _ _ _ Hb).
Qed.

Section Rho.
Context (rho : assignment) (one : rho ONE = 1).

(** Wires congruent to given values. *)
Definition ev (ls : list LC) (vs : list Z) : Prop := Forall2 (fun l v => eqp (lc_eval rho l) v) ls vs.

Lemma ev_map ls vs : ev ls vs <-> Forall2 eqp (map (lc_eval rho) ls) vs.
Proof.
  split; intros H.
  - induction H; simpl; constructor; auto.
  - revert vs H. induction ls; intros vs H; inversion H; subst; constructor; auto. now apply IHls.
Qed.
Lemma ev_wires ls : ev ls (wires rho ls).
Proof. induction ls; constructor; auto. symmetry. apply eqp_feval. Qed.
Lemma ev_nth ls vs i : ev ls vs -> eqp (lc_eval rho (nth i ls lc_zero)) (nth i vs 0).
Proof.
  intros H. revert i. induction H; intros [|i]; simpl; auto; reflexivity.
Qed.
Lemma ev_length ls vs : ev ls vs -> length ls = length vs.
Proof. apply Forall2_length. Qed.
Lemma ev_canon ls vs : ev ls vs -> Forall canon vs -> wires rho ls = vs.
Proof.
  intros H. induction H; intros F; inversion F; subst; auto. unfold wires in *. cbn [map]. f_equal; auto.
  now apply feval_eqp.
Qed.
Lemma wires_ev ls vs : wires rho ls = vs -> ev ls vs.
Proof. intros <-. apply ev_wires. Qed.
Lemma ev_eqp ls vs vs' : ev ls vs -> Forall2 eqp vs vs' -> ev ls vs'.
Proof.
  intros H. revert vs'. induction H; intros vs' F; inversion F; subst; constructor; auto.
  - now rewrite H.
  - now apply IHForall2.
Qed.

Lemma lc_at_eval x : forall cs i,
  eqp (lc_eval rho (lc_at i x cs)) (i * value_of x (map (lc_eval rho) cs)).
Proof.
  induction cs as [|c cs IH]; intros i; cbn [lc_at map value_of].
  - lcs. ering.
  - lcs. rewrite IH. feq. ering.
Qed.

Lemma lc_at_ev x cs vs : ev cs vs -> eqp (lc_eval rho (lc_at fone x cs)) (value_of x vs).
Proof.
  intros H. apply ev_map in H. rewrite lc_at_eval, fone_1, (value_of_eqp x _ _ H). ering.
Qed.

(** ** alloc_product *)
Lemma alloc_product_swp md a b A B : ev (p_coeffs a) A -> ev (p_coeffs b) B ->
  Z.of_nat (length A + length B - 1) < modulus ->
  swp md rho (alloc_product a b) (fun p =>
    ev (p_coeffs p) (map (conv A B) (seq 0 (length A + length B - 1)))).
Proof.
  intros HA HB Hn. unfold alloc_product. repeat sstep. intros n Hu.
  rewrite (ev_length _ _ HA), (ev_length _ _ HB) in Hu. unfold usub in Hu.
  destruct (Nat.leb_spec 1 (length A + length B)); [|discriminate]. injection Hu as <-.
  set (n := (length A + length B - 1)%nat) in *.
  repeat sstep. intros values _. sstep.
  apply (swp_mapM _ _ _ (fun _ l => True)).
  { intros i _. repeat sstep. intros x v _. repeat sstep. exact I. }
  intros cs Hcs. apply Forall2_length in Hcs. rewrite seq_length in Hcs.
  sstep. apply (swp_iterM _ _ _ (fun k => eqp (value_of (fmk (Z.of_nat k)) A * value_of (fmk (Z.of_nat k)) B)
     (value_of (fmk (Z.of_nat k)) (map (lc_eval rho) cs)))).
  { intros k _. sstep. intros H0. rewrite (lc_at_ev _ _ _ HA), (lc_at_ev _ _ _ HB) in H0.
    rewrite H0, lc_at_eval, fone_1. ering. }
  intros Hk. sstep. cbn [p_coeffs]. apply ev_map.
  apply (interpolate n); auto.
  - now rewrite map_length.
  - now rewrite map_length, seq_length.
  - intros k Hk'. rewrite <- (Hk k) by (apply in_seq; lia).
    rewrite value_of_conv by lia. reflexivity.
Qed.

Definition is_poly (p : polynomial) (vs : list Z) : Prop :=
  p_vals p = Some vs /\ Forall canon vs /\ ev (p_coeffs p) vs.

Lemma product_con A B k : (1 <= length A + length B)%nat -> forall cs,
  ev cs (map (fun i => fmk (conv A B i)) (seq 0 (length A + length B - 1))) -> forall a b,
  ev a A -> ev b B ->
  eqp (lc_eval rho (lc_at fone (fmk k) a) * lc_eval rho (lc_at fone (fmk k) b))
      (lc_eval rho (lc_at fone (fmk k) cs)).
Proof.
  intros Hn cs Hcs a b Ha Hb.
  rewrite (lc_at_ev _ _ _ Ha), (lc_at_ev _ _ _ Hb).
  rewrite <- (value_of_conv (fmk k) A B (length A + length B - 1)) by lia.
  rewrite (lc_at_ev _ _ (map (conv A B) (seq 0 (length A + length B - 1)))); [reflexivity|].
  eapply ev_eqp; [exact Hcs|]. clear. induction (seq 0 _); simpl; constructor; auto. apply eqp_fmk.
Qed.

Lemma alloc_product_hwp a b A B : is_poly a A -> is_poly b B -> (1 <= length A)%nat -> (1 <= length B)%nat ->
  hwp rho (alloc_product a b) (fun p =>
    is_poly p (map (fun i => fmk (conv A B i)) (seq 0 (length A + length B - 1)))).
Proof.
  intros (Va & Ca & HA) (Vb & Cb & HB) LA LB. unfold alloc_product.
  do 2 hstep. { unfold usub. rewrite (ev_length _ _ HA), (ev_length _ _ HB).
    destruct (Nat.leb_spec 1 (length A + length B)); [reflexivity|lia]. }
  set (n := (length A + length B - 1)%nat).
  do 2 hstep. { rewrite Va, Vb, conv_values_ok by lia. reflexivity. }
  hstep. apply (hwp_mapM _ _ (fun i l => eqp (lc_eval rho l) (fmk (conv A B i)))).
  { intros i Hi. apply in_seq in Hi. do 2 hstep.
    - cbn [grab rbind]. unfold idx. rewrite nth_error_map, nth_error_nth' with (d := 0%nat) by (rewrite seq_length; lia).
      rewrite seq_nth by lia. reflexivity.
    - intros x Hx. hstep. lcs. rewrite Hx. reflexivity. }
  intros cs Hcs. assert (Hev : ev cs (map (fun i => fmk (conv A B i)) (seq 0 n))).
  { clear -Hcs. induction Hcs; simpl; constructor; auto. }
  hstep. apply hwp_iterM.
  - intros k _. hstep; auto. apply (product_con A B); auto. lia.
  - hstep. split; [reflexivity|]. split; [|exact Hev].
    apply Forall_map, Forall_forall. intros; apply fmk_canon.
Qed.

Lemma alloc_product_awp md a b A B : ev (p_coeffs a) A -> ev (p_coeffs b) B ->
  (1 <= length A)%nat -> (1 <= length B)%nat ->
  (match p_vals a with Some xs => length xs = length A | None => True end) ->
  (match p_vals b with Some xs => length xs = length B | None => True end) ->
  (md = Honest -> p_vals a = Some A /\ p_vals b = Some B) ->
  awp md rho (alloc_product a b) (map (fun i => fmk (conv A B i)) (seq 0 (length A + length B - 1)))
    (fun p => ev (p_coeffs p) (map (fun i => fmk (conv A B i)) (seq 0 (length A + length B - 1))) /\
       match p_vals p with Some xs => length xs = (length A + length B - 1)%nat /\ Forall canon xs | None => True end /\
       (md = Honest -> p_vals p = Some (map (fun i => fmk (conv A B i)) (seq 0 (length A + length B - 1))))).
Proof.
  intros HA HB LA LB Va Vb Hh. unfold alloc_product.
  apply awp_bind_nil. eapply awp_lift.
  { unfold usub. rewrite (ev_length _ _ HA), (ev_length _ _ HB).
    destruct (Nat.leb_spec 1 (length A + length B)); [reflexivity|lia]. }
  set (n := (length A + length B - 1)%nat).
  assert (Hok : exists values, match p_vals a, p_vals b with
     | Some xs, Some ys => let? vs := conv_values n xs ys in Ok (Some vs)
     | _, _ => Ok None
     end = Ok values /\ match values with Some xs => length xs = n /\ Forall canon xs | None => True end /\
     (md = Honest -> values = Some (map (fun i => fmk (conv A B i)) (seq 0 n)))).
  { destruct (p_vals a) as [xa|], (p_vals b) as [xb|];
      try (eexists; split; [reflexivity|]; split; [exact I|];
           intros Hm; destruct (Hh Hm); discriminate).
    rewrite conv_values_ok by (try (right; lia); lia). cbn [rbind]. eexists; split; [reflexivity|]. cbv iota beta.
    split; [split; [now rewrite map_length, seq_length|apply Forall_map, Forall_forall; intros; apply fmk_canon]|].
    intros Hm. destruct (Hh Hm) as [H1 H2].
    injection H1 as ->. injection H2 as ->. reflexivity. }
  destruct Hok as (values & Hok & Hlen & Hvs). apply awp_bind_nil. eapply awp_lift; [exact Hok|].
  replace (map (fun i => fmk (conv A B i)) (seq 0 n))
    with (flat_map (fun i => [fmk (conv A B i)]) (seq 0 n)) at 1.
  2:{ induction (seq 0 n); simpl; f_equal; auto. }
  apply awp_bind_all. apply (awp_mapM _ _ _ _ (fun i l => eqp (lc_eval rho l) (fmk (conv A B i)))).
  { intros i Hi. apply in_seq in Hi. apply awp_bind_all. astep.
    - intros Hm. rewrite (Hvs Hm). cbn [grab rbind]. unfold idx.
      rewrite nth_error_map, nth_error_nth' with (d := 0%nat) by (rewrite seq_length; lia).
      rewrite seq_nth by lia. reflexivity.
    - intros x v Hx _. astep. lcs. rewrite Hx. reflexivity. }
  intros cs Hcs. assert (Hev : ev cs (map (fun i => fmk (conv A B i)) (seq 0 n))).
  { clear -Hcs. induction Hcs; simpl; constructor; auto. }
  apply awp_bind_nil. apply awp_iterM_nil.
  - intros k _. astep; auto. apply (product_con A B); auto. lia.
  - astep. split; auto.
Qed.

(** ** sum *)
Lemma poly_sum_ev a b A B : ev (p_coeffs a) A -> ev (p_coeffs b) B ->
  ev (p_coeffs (poly_sum a b))
     (map (fun i => nth i A 0 + nth i B 0) (seq 0 (Nat.max (length A) (length B)))).
Proof.
  intros HA HB. unfold poly_sum. cbn [p_coeffs].
  rewrite (ev_length _ _ HA), (ev_length _ _ HB). apply ev_map. rewrite map_map.
  induction (seq 0 _); simpl; constructor; auto. lcs.
  now rewrite (ev_nth _ _ _ HA), (ev_nth _ _ _ HB).
Qed.

Lemma poly_sum_is a b A B : is_poly a A -> is_poly b B ->
  is_poly (poly_sum a b)
     (map (fun i => fmk (nth i A 0 + nth i B 0)) (seq 0 (Nat.max (length A) (length B)))).
Proof.
  intros (Va & Ca & HA) (Vb & Cb & HB). split; [|split].
  - unfold poly_sum. cbn [p_vals]. rewrite Va, Vb, (ev_length _ _ HA), (ev_length _ _ HB). f_equal.
    apply map_ext. intros i. unfold fadd.
    apply (proj1 (eqp_eq _ _)). rewrite eqp_fmk. unfold fzero. ering.
  - apply Forall_map, Forall_forall. intros; apply fmk_canon.
  - eapply ev_eqp; [apply poly_sum_ev; eauto|].
    induction (seq 0 _); simpl; constructor; auto. symmetry. apply eqp_fmk.
Qed.

End Rho.
End PolyP.
