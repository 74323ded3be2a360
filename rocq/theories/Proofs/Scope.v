(** Constraints refer to allocated variables only (C102): the calculus and the gadgets below the header circuit. *)
From Coq Require Import String ZArith Bool List Lia.
From Verif.Model Require Import Base CS Bellpepper Util Poly Bignat Gadget.
From Verif.Spec Require Import SpecUnique SpecScope.
Import ListNotations.
Local Open Scope Z_scope.

Section Scope.
Context {E : Env} (V : var -> Prop) (one : V ONE).

Definition lcV (l : LC) : Prop := forall c v, In (c, v) l -> V v.
Definition conV (c : constraint) : Prop :=
  match c with
  | R1 a b c => lcV a /\ lcV b /\ lcV c
  | ShaC ins outs => Forall lcV ins /\ Forall lcV outs
  end.

Fixpoint kwp {A} (m : prog A) (Q : A -> Prop) : Prop :=
  match m with
  | Ret a => Q a
  | Fail _ => True
  | Crash => True
  | Alloc inp nm w k => forall x v, V x -> kwp (k x v) Q
  | Enforce nm c k => conV c /\ kwp k Q
  | Push nm k => kwp k Q
  | Pop k => kwp k Q
  end.

Lemma kwp_mono {A} (m : prog A) (Q R : A -> Prop) : kwp m Q -> (forall a, Q a -> R a) -> kwp m R.
Proof.
  induction m as [a|e| |inp nm w k IH|nm c k IH|nm k IH|k IH]; simpl; intros H HQ; auto. destruct H. auto.
Qed.
Lemma kwp_bind {A B} (m : prog A) (f : A -> prog B) (Q : B -> Prop) :
  kwp m (fun a => kwp (f a) Q) -> kwp (bind m f) Q.
Proof.
  induction m as [a|e| |inp nm w k IH|nm c k IH|nm k IH|k IH]; simpl; intros H; auto. destruct H. auto.
Qed.
Lemma kwp_ns {A} nm (m : prog A) (Q : A -> Prop) : kwp m Q -> kwp (ns nm m) Q.
Proof. intros H. unfold ns. simpl. apply kwp_bind. exact H. Qed.
Lemma kwp_unwrap {A} (m : prog A) (Q : A -> Prop) : kwp m Q -> kwp (unwrap_prog m) Q.
Proof.
  induction m as [a|e| |inp nm w k IH|nm c k IH|nm k IH|k IH]; simpl; intros H; auto. destruct H. auto.
Qed.
Lemma kwp_lift {A} (r : res A) (Q : A -> Prop) : (forall a, r = Ok a -> Q a) -> kwp (lift r) Q.
Proof. destruct r; simpl; auto. Qed.
Lemma kwp_alloc nm w (Q : var * option Z -> Prop) : (forall x v, V x -> Q (x, v)) -> kwp (alloc nm w) Q.
Proof. intros H. exact H. Qed.
Lemma kwp_alloc_input nm w (Q : var * option Z -> Prop) : (forall x v, V x -> Q (x, v)) -> kwp (alloc_input nm w) Q.
Proof. intros H. exact H. Qed.
Lemma kwp_enforce nm a b c (Q : unit -> Prop) : lcV a -> lcV b -> lcV c -> Q tt -> kwp (enforce nm a b c) Q.
Proof. intros. simpl. auto. Qed.
Lemma kwp_mapM {A B} (f : A -> prog B) (R : B -> Prop) (l : list A) :
  (forall a, In a l -> kwp (f a) R) -> kwp (mapM f l) (Forall R).
Proof.
  induction l as [|a l IH]; intros H; [constructor|]. cbn [mapM]. apply kwp_bind. eapply kwp_mono; [apply H; now left|].
  intros b Hb. apply kwp_bind. eapply kwp_mono; [apply IH; intros; apply H; now right|]. intros bs Hbs. simpl. now constructor.
Qed.
Lemma kwp_iterM {A} (f : A -> prog unit) (l : list A) :
  (forall a, In a l -> kwp (f a) (fun _ => True)) -> kwp (iterM f l) (fun _ => True).
Proof.
  induction l as [|a l IH]; intros H; [exact I|]. cbn [iterM]. apply kwp_bind. eapply kwp_mono; [apply H; now left|].
  intros _ _. apply IH. intros; apply H; now right.
Qed.
Lemma kwp_foldM {A S} (f : S -> A -> prog S) (R : S -> Prop) (l : list A) : forall s,
  (forall s a, In a l -> R s -> kwp (f s a) R) -> R s -> kwp (foldM f l s) R.
Proof.
  induction l as [|a l IH]; intros s H Hs; [exact Hs|]. cbn [foldM]. apply kwp_bind.
  eapply kwp_mono; [apply H; auto; now left|]. intros s' Hs'. apply IH; auto. intros; apply H; auto; now right.
Qed.
Lemma kwp_true {A} (m : prog A) (Q : A -> Prop) : kwp m Q -> kwp m (fun _ => True).
Proof. intros H. eapply kwp_mono; [exact H|]. auto. Qed.

(** ** Linear combinations *)
Lemma lcV_zero : lcV lc_zero.
Proof. intros c v []. Qed.
Lemma lcV_one_term c v : V v -> lcV [(c, v)].
Proof. intros H c' v' [[= <- <-]|[]]. exact H. Qed.
Lemma lcV_var v : V v -> lcV (lc_var v).
Proof. apply lcV_one_term. Qed.
Lemma lcV_const c : lcV (lc_const c).
Proof. apply lcV_one_term. exact one. Qed.
Lemma lcV_app a b : lcV a -> lcV b -> lcV (a ++ b).
Proof. intros Ha Hb c v H. apply in_app_or in H. destruct H; eauto. Qed.
Lemma lcV_add a b : lcV a -> lcV b -> lcV (lc_add a b).
Proof. apply lcV_app. Qed.
Lemma lcV_scale c a : lcV a -> lcV (lc_scale c a).
Proof. intros Ha c' v H. unfold lc_scale in H. apply in_map_iff in H. destruct H as [[d w] [[= <- <-] H]]. eauto. Qed.
Lemma lcV_sub a b : lcV a -> lcV b -> lcV (lc_sub a b).
Proof. intros Ha Hb. apply lcV_app; auto. now apply lcV_scale. Qed.
Lemma lcV_nth l i : Forall lcV l -> lcV (nth i l lc_zero).
Proof.
  intros H. destruct (Nat.lt_ge_cases i (length l)) as [L|L].
  - rewrite Forall_forall in H. apply H. now apply nth_In.
  - rewrite nth_overflow by exact L. apply lcV_zero.
Qed.
Lemma lcV_flat {A} (f : A -> LC) l : Forall (fun a => lcV (f a)) l -> lcV (flat_map f l).
Proof. induction 1; simpl; [apply lcV_zero|now apply lcV_app]. Qed.

Definition boolV (b : Boolean) : Prop :=
  match b with BIs a => V (ab_var a) | BNot a => V (ab_var a) | BConst _ => True end.
Lemma lcV_bool b c : boolV b -> lcV (bool_lc b c).
Proof.
  destruct b as [a|a|[]]; simpl; intros H; auto using lcV_one_term, lcV_zero.
  apply (lcV_app [_] [_]); now apply lcV_one_term.
Qed.
Lemma boolV_not b : boolV b -> boolV (bool_not b).
Proof. destruct b; auto. Qed.
End Scope.

Create HintDb sco.
Global Hint Resolve lcV_zero lcV_var lcV_const lcV_add lcV_scale lcV_sub lcV_nth lcV_flat lcV_bool boolV_not lcV_one_term : sco.

Ltac kstep :=
  lazymatch goal with
  | |- kwp _ (let (_, _) := ?p in _) _ =>
      destruct p as [? ?]; cbn [fst snd] in *; repeat match goal with H : _ /\ _ |- _ => destruct H end
  | |- kwp _ (bind _ _) _ => apply kwp_bind
  | |- kwp _ (ns _ _) _ => apply kwp_ns
  | |- kwp _ (unwrap_prog _) _ => apply kwp_unwrap
  | |- kwp _ (Ret _) _ => cbn [kwp]
  | |- kwp _ (Fail _) _ => exact I
  | |- kwp _ Crash _ => exact I
  | |- kwp _ (alloc _ _) _ => apply kwp_alloc; intros
  | |- kwp _ (alloc_input _ _) _ => apply kwp_alloc_input; intros
  | |- kwp _ (enforce _ _ _ _) _ => apply kwp_enforce; [solve [auto 12 with sco]|solve [auto 12 with sco]|solve [auto 12 with sco]|]
  | |- kwp _ (lift _) _ => apply kwp_lift; intros
  | |- kwp _ (if ?b then _ else _) _ => destruct b
  | |- kwp _ _ _ => eapply kwp_mono; [solve [eauto 12 with kwp sco]|cbv beta; intros]
  end; cbv beta iota.
Ltac kgo := repeat kstep; auto 8 with sco.
Create HintDb kwp.

Section Gadgets.
Context {E : Env} (V : var -> Prop) (one : V ONE).
Notation lcV := (lcV V).
Notation kwp := (kwp V).
Notation boolV := (boolV V).

(** ** bellpepper *)
Lemma k_an_alloc w : kwp (an_alloc w) (fun a => V (an_var a)).
Proof. unfold an_alloc. kgo. Qed.
Lemma k_an_add a b : V (an_var a) -> V (an_var b) -> kwp (an_add a b) (fun a => V (an_var a)).
Proof. intros. unfold an_add. kgo. Qed.
Lemma k_ab_alloc v : kwp (ab_alloc v) (fun b => V (ab_var b)).
Proof. unfold ab_alloc. kgo. Qed.
Lemma k_ab_and a b : V (ab_var a) -> V (ab_var b) -> kwp (ab_and a b) (fun b => V (ab_var b)).
Proof. intros. unfold ab_and. kgo. Qed.
Lemma k_ab_and_not a b : V (ab_var a) -> V (ab_var b) -> kwp (ab_and_not a b) (fun b => V (ab_var b)).
Proof. intros. unfold ab_and_not. kgo. Qed.
Lemma k_ab_nor a b : V (ab_var a) -> V (ab_var b) -> kwp (ab_nor a b) (fun b => V (ab_var b)).
Proof. intros. unfold ab_nor. kgo. Qed.
Hint Resolve k_an_alloc k_an_add k_ab_alloc k_ab_and k_ab_and_not k_ab_nor : kwp.
Lemma k_bool_and a b : boolV a -> boolV b -> kwp (bool_and a b) boolV.
Proof.
  intros Ha Hb. destruct a as [a|a|[]], b as [b|b|[]]; cbn [bool_and Scope.boolV] in *; kgo.
Qed.
Hint Resolve k_bool_and : kwp.
Lemma k_bool_or a b : boolV a -> boolV b -> kwp (bool_or a b) boolV.
Proof. intros. unfold bool_or. kgo. Qed.
Lemma k_bool_enforce_equal a b : boolV a -> boolV b -> kwp (bool_enforce_equal a b) (fun _ => True).
Proof.
  intros Ha Hb. destruct a as [a|a|[]], b as [b|b|[]]; cbn [bool_enforce_equal Bool.eqb]; kgo.
Qed.
Lemma k_cond_reverse a b c : V (an_var a) -> V (an_var b) -> boolV c ->
  kwp (an_conditionally_reverse a b c) (fun p => V (an_var (fst p)) /\ V (an_var (snd p))).
Proof. intros. unfold an_conditionally_reverse. kgo. Qed.
Lemma k_u64_bits v : kwp (u64_into_boolean_vec_le v) (Forall boolV).
Proof. apply kwp_mapM. intros i _. kgo. Qed.
Lemma k_sha ins : Forall boolV ins -> kwp (sha256_gadget ins) (Forall boolV).
Proof.
  intros H. unfold sha256_gadget. kstep; [exact I|]. kstep.
  eapply kwp_mono; [apply (kwp_mapM V _ (fun b => V (ab_var b))); intros; kgo|]. cbv beta. intros outs Ho. simpl. repeat split.
  - apply Forall_map. eapply Forall_impl; [|exact H]. intros b Hb. now apply lcV_bool.
  - apply Forall_map. eapply Forall_impl; [|exact Ho]. intros b Hb. now apply lcV_var.
  - apply Forall_map. exact Ho.
Qed.
Hint Resolve k_bool_or k_bool_enforce_equal k_cond_reverse k_u64_bits k_sha : kwp.

(** ** bits and numbers *)
Lemma k_bit_alloc v : kwp (bit_alloc v) (fun b => lcV (b_lc b)).
Proof. unfold bit_alloc. kgo. simpl. auto with sco. Qed.
Lemma k_bit_constrain b v : lcV (b_lc b) -> kwp (bit_constrain_value b v) (fun _ => True).
Proof. intros. unfold bit_constrain_value. apply kwp_enforce; auto with sco. destruct v; auto with sco. Qed.
Lemma k_num_alloc w : kwp (num_alloc w) (fun n => lcV (n_lc n)).
Proof. unfold num_alloc. kgo. simpl. auto with sco. Qed.
Lemma weighted_vars_V sgn : forall vs f, Forall V vs -> lcV (weighted_vars sgn f vs).
Proof.
  induction vs as [|v vs IH]; intros f H; cbn [weighted_vars]; [apply lcV_zero|]. inversion H; subst.
  apply (lcV_app V [_]); [now apply lcV_one_term|now apply IH].
Qed.
Lemma weighted_bits_V : forall bs f, Forall (fun b => lcV (b_lc b)) bs -> lcV (weighted_bits f bs).
Proof.
  induction bs as [|b bs IH]; intros f H; cbn [weighted_bits]; [apply lcV_zero|]. inversion H; subst. auto with sco.
Qed.
Hint Resolve weighted_vars_V weighted_bits_V : sco.
Hint Resolve k_bit_alloc k_bit_constrain k_num_alloc : kwp.
Lemma k_fits n k : lcV (n_lc n) -> kwp (fits_in_bits n k) (fun _ => True).
Proof.
  intros H. unfold fits_in_bits. kstep. eapply kwp_mono; [apply (kwp_mapM V _ V); intros; kgo|]. cbv beta. intros bits Hb.
  kstep. eapply kwp_mono; [apply kwp_iterM|].
  - intros [i x] Hin. cbn [fst snd]. apply in_combine_r in Hin. rewrite Forall_forall in Hb. specialize (Hb x Hin). kgo.
  - intros _ _. kgo.
Qed.
Definition bvV (b : bitvector) : Prop := Forall lcV (bv_bits b) /\ Forall (fun x => lcV (b_lc x)) (bv_allocs b).
Lemma k_num_is_equal n bv : lcV (n_lc n) -> bvV bv -> kwp (num_is_equal n bv) (fun _ => True).
Proof. intros H [_ Hb]. unfold num_is_equal. kgo. Qed.
Lemma k_num_decompose n k : lcV (n_lc n) -> kwp (num_decompose n k) bvV.
Proof.
  intros H. unfold num_decompose. kstep. kstep. kstep.
  eapply kwp_mono; [apply (kwp_mapM V _ (fun b => lcV (b_lc b))); intros; kgo|]. cbv beta. intros bits Hb.
  kgo. split; cbn [bv_bits bv_allocs]; auto. now apply Forall_map.
Qed.
Lemma k_as_sapling n : lcV (n_lc n) -> kwp (as_sapling_allocated_num n) (fun a => V (an_var a)).
Proof. intros. unfold as_sapling_allocated_num. kgo. Qed.
Hint Resolve k_fits k_num_is_equal k_num_decompose k_as_sapling : kwp.

(** ** polynomials *)
Lemma lc_at_V x : forall cs i, Forall lcV cs -> lcV (lc_at i x cs).
Proof. induction cs as [|c cs IH]; intros i H; cbn [lc_at]; [apply lcV_zero|]. inversion H; subst. auto with sco. Qed.
Hint Resolve lc_at_V : sco.
Lemma k_alloc_product a b : Forall lcV (p_coeffs a) -> Forall lcV (p_coeffs b) ->
  kwp (alloc_product a b) (fun p => Forall lcV (p_coeffs p)).
Proof.
  intros Ha Hb. unfold alloc_product. kstep. kstep. kstep. kstep. kstep.
  eapply kwp_mono; [apply (kwp_mapM V _ lcV); intros; kgo|]. cbv beta. intros cs Hc.
  kstep. eapply kwp_mono; [apply kwp_iterM; intros; kgo|]. intros _ _. exact Hc.
Qed.
Lemma poly_sum_V a b : Forall lcV (p_coeffs a) -> Forall lcV (p_coeffs b) -> Forall lcV (p_coeffs (poly_sum a b)).
Proof.
  intros Ha Hb. apply Forall_map, Forall_forall. intros i _. auto with sco.
Qed.
Hint Resolve k_alloc_product : kwp.
Hint Resolve poly_sum_V : sco.

(** ** numbers in limbs *)
Definition bnV (b : bignat) : Prop := Forall lcV (limbs b).
Lemma k_alloc_from_limbs f mw w n : kwp (alloc_from_limbs f mw w n) bnV.
Proof.
  unfold alloc_from_limbs. kstep. eapply kwp_mono; [apply (kwp_mapM V _ (fun p => V (fst p))); intros; kgo|]. cbv beta. intros xs Hx.
  destruct (match captured xs with [] => _ | _ => _ end) as [v lvs]. simpl. unfold bnV, xs_lcs. simpl. apply Forall_map.
  eapply Forall_impl; [|exact Hx]. intros p Hp. now apply lcV_var.
Qed.
Lemma k_alloc_from_nat f w n : kwp (alloc_from_nat f w n) bnV.
Proof.
  unfold alloc_from_nat. kstep. eapply kwp_mono; [apply (kwp_mapM V _ (fun p => V (fst p))); intros; kgo|]. cbv beta. intros xs Hx.
  destruct (match captured xs with [] => _ | _ => _ end) as [v lvs]. simpl. unfold bnV, xs_lcs. simpl. apply Forall_map.
  eapply Forall_impl; [|exact Hx]. intros p Hp. now apply lcV_var.
Qed.
Lemma bnV_in b i l : bnV b -> In (i, l) (combine (seq 0 (length (limbs b))) (limbs b)) -> lcV l.
Proof. intros H Hin. apply in_combine_r in Hin. unfold bnV in H. rewrite Forall_forall in H. auto. Qed.
Lemma k_bn_inputize b : bnV b -> kwp (bn_inputize b) (fun _ => True).
Proof. intros H. apply kwp_iterM. intros [i l] Hin. cbn [fst snd]. pose proof (bnV_in _ _ _ H Hin). kgo. Qed.
Lemma k_equal_ge a b : bnV a -> bnV b -> kwp (equal_ge a b) (fun _ => True).
Proof.
  intros Ha Hb. unfold bnV in *. unfold equal_ge. kstep. kstep. kstep. eapply kwp_mono; [apply kwp_iterM; intros; kgo|]. intros _ _.
  apply kwp_iterM; intros; kgo.
Qed.
Hint Resolve k_alloc_from_limbs k_alloc_from_nat k_bn_inputize k_equal_ge : kwp.
Lemma k_equal a b : bnV a -> bnV b -> kwp (equal a b) (fun _ => True).
Proof. intros. unfold equal. kgo. Qed.
Lemma k_equals a b : V (an_var a) -> V (an_var b) -> kwp (equals a b) boolV.
Proof. intros. unfold equals. kgo. Qed.
Hint Resolve k_equal k_equals : kwp.
Lemma k_is_equal a b : bnV a -> bnV b -> kwp (is_equal a b) boolV.
Proof.
  intros Ha Hb. unfold bnV in *. unfold is_equal. kstep; [exact I|]. kstep. kstep. apply (kwp_foldM V _ boolV); [|exact I].
  intros r i _ Hr. kgo.
Qed.
Lemma limb_nums_V b i n : bnV b -> In (i, Ok n) (combine (seq 0 (length (limbs b))) (limb_nums b)) -> lcV (n_lc n).
Proof.
  intros H Hin. apply in_combine_r in Hin. unfold limb_nums in Hin. apply in_map_iff in Hin. destruct Hin as [[j l] [He Hl]].
  apply (bnV_in _ _ _ H) in Hl. cbn [fst snd] in He.
  destruct (limb_values b) as [vs|]; [destruct (idx vs j)|]; cbn in He; try discriminate; injection He as <-; exact Hl.
Qed.
Lemma k_well_formed b : bnV b -> kwp (assert_well_formed b) (fun _ => True).
Proof.
  intros H. apply kwp_iterM. intros [i r] Hin. cbn [fst snd]. kstep. apply kwp_lift. intros n ->.
  pose proof (limb_nums_V _ _ _ H Hin). kgo.
Qed.
Lemma Forall_flat {A B} (P : B -> Prop) (f : A -> list B) l : Forall (fun a => Forall P (f a)) l -> Forall P (flat_map f l).
Proof. induction 1; simpl; [constructor|apply Forall_app; auto]. Qed.
Lemma k_bn_decompose b : bnV b -> kwp (bn_decompose b) bvV.
Proof.
  intros H. unfold bn_decompose. kstep. eapply kwp_mono; [apply (kwp_mapM V _ bvV)|].
  - intros [i r] Hin. cbn [fst snd]. kstep. apply kwp_lift. intros n ->. pose proof (limb_nums_V _ _ _ H Hin). kgo.
  - cbv beta. intros bvs Hb. simpl. split; cbn [bv_bits bv_allocs]; apply Forall_flat; eapply Forall_impl; try exact Hb; intros bv [? ?]; auto.
Qed.
Hint Resolve k_is_equal k_well_formed k_bn_decompose : kwp.
Lemma k_from_num n w k : lcV (n_lc n) -> kwp (from_num n w k) bnV.
Proof. intros. unfold from_num. kgo. Qed.

(** ** reshaping *)
Lemma update_V k f l : (forall x, lcV x -> lcV (f x)) -> Forall lcV l -> Forall lcV (update k f l).
Proof.
  intros Hf. revert k. induction l as [|a l IH]; intros k H; destruct k; simpl; auto; inversion H; subst; constructor; auto.
Qed.
Lemma group_loop_V block lpg : forall xs i sh acc ls, Forall lcV xs -> Forall lcV acc ->
  group_loop (fun old s l => lc_add old (lc_scale s l)) block lpg i sh xs acc = Ok ls -> Forall lcV ls.
Proof.
  induction xs as [|x xs IH]; intros i sh acc ls Hx Ha; cbn [group_loop]; [now intros [= <-]|].
  inversion Hx; subst. destruct (_ <? _)%nat; [|discriminate]. apply IH; auto. apply update_V; auto with sco.
Qed.
Lemma repeat_V n : Forall lcV (repeat lc_zero n).
Proof. induction n; simpl; constructor; auto with sco. Qed.
Lemma group_limbs_V b lpg g : bnV b -> group_limbs b lpg = Ok g -> bnV g.
Proof.
  intros H. unfold group_limbs. destruct (group_count _ _) as [n| |]; cbn; try discriminate.
  destruct (match limb_values b with None => _ | Some _ => _ end) as [lvs| |]; cbn; try discriminate.
  destruct (group_loop (fun old s l => lc_add old (lc_scale s l)) _ _ _ _ _ _) as [ls| |] eqn:G; cbn; try discriminate. intros [= <-].
  unfold bnV. cbn [limbs]. eapply group_loop_V; [exact H|apply repeat_V|exact G].
Qed.
Lemma concat_V a b c : bnV a -> bnV b -> concat a b = Ok c -> bnV c.
Proof.
  intros Ha Hb. unfold concat. destruct (width_agreement a b); cbn; try discriminate. intros [= <-]. apply Forall_app. auto.
Qed.
Lemma rmapM_V {A B} (f : A -> res B) (P : B -> Prop) : forall l bs, (forall a b, In a l -> f a = Ok b -> P b) -> rmapM f l = Ok bs -> Forall P bs.
Proof.
  induction l as [|a l IH]; intros bs H; cbn [rmapM]; [intros [= <-]; constructor|].
  destruct (f a) as [b| |] eqn:F; cbn; try discriminate. destruct (rmapM f l) as [bs'| |]; cbn; try discriminate. intros [= <-].
  constructor; [apply (H a); [now left|exact F]|apply IH; auto; intros; apply (H a0); auto; now right].
Qed.
Lemma nth_error_V l i x : Forall lcV l -> nth_error l i = Some x -> lcV x.
Proof. intros H Hx. rewrite Forall_forall in H. apply H. now apply nth_error_In in Hx. Qed.
Lemma add_V a b c : bnV a -> bnV b -> Bignat.add a b = Ok c -> bnV c.
Proof.
  intros Ha Hb. unfold Bignat.add. destruct (width_agreement a b); cbn [rbind]; try discriminate.
  destruct (rmapM (fun i => opt2 lc_add _ _) _) as [ls| |] eqn:G; cbn [rbind]; try discriminate.
  match goal with |- (let? _ := ?m in _) = _ -> _ => destruct m as [lvs| |]; cbn [rbind]; try discriminate end. intros [= <-].
  unfold bnV. cbn [limbs]. eapply rmapM_V; [|exact G]. intros i x _ Hx. cbv beta in Hx.
  destruct (nth_error (limbs a) i) as [p|] eqn:Ea, (nth_error (limbs b) i) as [q|] eqn:Eb; cbn in Hx; try discriminate; injection Hx as <-;
    [apply lcV_add| |]; eauto using nth_error_V.
Qed.
Lemma with_n_limbs_V b n c : bnV b -> with_n_limbs b n = Ok c -> bnV c.
Proof.
  intros H. unfold with_n_limbs. destruct (_ <? _)%nat; [discriminate|]. destruct (_ =? _)%nat; intros [= <-]; auto.
  unfold bnV. cbn [limbs]. apply Forall_app. split; [exact H|apply repeat_V].
Qed.
Lemma shift_V b k c : bnV b -> shift b k = Ok c -> bnV c.
Proof.
  intros H. unfold shift, bnV in *. destruct (limbs b) as [|l ls]; [discriminate|]. inversion H; subst.
  match goal with |- (let? _ := ?m in _) = _ -> _ => destruct m as [lvs| |]; cbn [rbind]; try discriminate end.
  destruct (_ <=? _); [|discriminate]. intros [= <-]. cbn [limbs]. constructor; auto with sco.
Qed.
Lemma scale_V b k c : bnV b -> scale b k = Ok c -> bnV c.
Proof.
  intros H. unfold scale. destruct (_ <=? _); [|discriminate]. intros [= <-]. apply Forall_map.
  eapply Forall_impl; [|exact H]. intros l Hl. auto with sco.
Qed.
Lemma removelast_V l : Forall lcV l -> Forall lcV (removelast l).
Proof.
  induction l as [|a l IH]; simpl; auto. intros H. inversion H; subst. destruct l; [constructor|]. constructor; auto.
Qed.
Lemma pop_limbs_V : forall k b c, bnV b -> pop_limbs k b = Ok c -> bnV c.
Proof.
  induction k as [|k IH]; intros b c H; cbn [pop_limbs]; [now intros [= <-]|].
  destruct (limb_values b) as [vs|].
  - destruct (unwrap (vec_pop vs)) as [[lv vs']| |]; cbn [rbind]; try discriminate.
    destruct (unwrap (value b)) as [v| |]; cbn [rbind]; try discriminate. apply IH. now apply removelast_V.
  - apply IH. now apply removelast_V.
Qed.
Lemma truncate_V b n c : bnV b -> truncate_limbs b n = Ok c -> bnV c.
Proof.
  intros H. unfold truncate_limbs. destruct (_ <? _)%nat; [|now intros [= <-]].
  destruct (pop_limbs _ b) as [d| |] eqn:G; cbn [rbind]; try discriminate. intros [= <-]. exact (pop_limbs_V _ _ _ H G).
Qed.
Lemma as_limbs_V b ns : bnV b -> as_limbs b = Ok ns -> Forall (fun n => lcV (n_lc n)) ns.
Proof.
  intros H G. eapply rmapM_V; [|exact G]. intros [i l] n Hin. cbn [fst snd]. pose proof (bnV_in _ _ _ H Hin).
  destruct (limb_values b) as [vs|]; [destruct (idx vs i); cbn [rbind]; try discriminate|]; intros [= <-]; exact H0.
Qed.
Lemma from_limbs_V ns w : Forall (fun n => lcV (n_lc n)) ns -> bnV (from_limbs ns w).
Proof. intros H. unfold bnV, from_limbs. cbn [limbs]. now apply Forall_map. Qed.
Lemma recompose_V bv w c : bvV bv -> recompose bv w = Ok c -> bnV c.
Proof.
  intros [H _]. unfold recompose. destruct (rmapM _ _) as [ns| |] eqn:G; cbn [rbind]; try discriminate. apply group_limbs_V.
  apply from_limbs_V. eapply rmapM_V; [|exact G]. intros [i l] n Hin. cbn [fst snd]. apply in_combine_r in Hin.
  rewrite Forall_forall in H. specialize (H _ Hin).
  destruct (bv_vals bv) as [vs|]; [destruct (idx vs i); cbn [rbind]; try discriminate|]; intros [= <-]; exact H.
Qed.
Lemma from_poly_V p w mw : Forall lcV (p_coeffs p) -> bnV (from_poly p w mw).
Proof. auto. Qed.
Lemma to_poly_V b : bnV b -> Forall lcV (p_coeffs (to_poly b)).
Proof. auto. Qed.
Lemma bn_one_V w : bnV (bn_one w).
Proof. constructor; [|constructor]. auto with sco. Qed.
Lemma into_bits_V bv bs : bvV bv -> bv_into_bits bv = Ok bs -> Forall (fun b => lcV (b_lc b)) bs.
Proof.
  intros [H _]. unfold bv_into_bits. destruct (bv_vals bv) as [vs|].
  - intros G. eapply rmapM_V; [|exact G]. intros [i l] n Hin. cbn [fst snd]. apply in_combine_r in Hin.
    rewrite Forall_forall in H. specialize (H _ Hin). destruct (idx vs i); cbn [rbind]; try discriminate. intros [= <-]. exact H.
  - intros [= <-]. now apply Forall_map.
Qed.
Hint Resolve from_poly_V to_poly_V poly_sum_V bn_one_V : sco.
Hint Resolve k_from_num : kwp.
Lemma vec_pop_V {A} (P : A -> Prop) l a r : Forall P l -> unwrap (vec_pop l) = Ok (a, r) -> P a.
Proof.
  intros H. unfold vec_pop. destruct (rev l) as [|x xs] eqn:R; cbn; [discriminate|]. intros [= <- _].
  apply Forall_rev in H. rewrite R in H. now inversion H.
Qed.
Lemma k_full_bits b : bnV b -> kwp (enforce_full_bits b) bnV.
Proof.
  intros H. unfold enforce_full_bits. kstep. kstep. kstep. apply kwp_lift. intros [lc r] G. pose proof (vec_pop_V _ _ _ _ H G) as Hl.
  kstep. kstep. eapply kwp_mono; [apply k_num_decompose; exact Hl|]. intros bv Hbv. kstep. apply kwp_lift. intros bits Gb.
  pose proof (into_bits_V _ _ Hbv Gb) as Hb. kstep. apply kwp_lift. intros [last r'] G'. pose proof (vec_pop_V _ _ _ _ Hb G'). kgo.
Qed.
Lemma k_min_bits b mb : bnV b -> kwp (enforce_min_bits b mb) bnV.
Proof.
  intros H. unfold enforce_min_bits. kstep. kstep. eapply kwp_mono; [apply k_bn_decompose; exact H|]. intros bv Hbv.
  kstep. apply kwp_lift. intros bits Gb. pose proof (into_bits_V _ _ Hbv Gb) as Hb. kstep. apply kwp_lift. intros k _.
  assert (Hu : lcV (sum_bits (skipn k bits))).
  { apply lcV_flat. rewrite <- (firstn_skipn k bits) in Hb. now apply Forall_app in Hb. }
  kgo.
Qed.

(** ** equality after carrying, arithmetic *)
Lemma k_carry_step a b n mw base cb s i : bnV a -> bnV b -> lcV (n_lc (snd s)) ->
  kwp (carry_step a b n mw base cb s i) (fun s => lcV (n_lc (snd s))).
Proof.
  intros Ha Hb Hs. unfold bnV in *. destruct s as [extra ci]. cbn [snd] in Hs. unfold carry_step. kgo.
Qed.
Lemma k_ewc a b : bnV a -> bnV b -> kwp (equal_when_carried a b) (fun _ => True).
Proof.
  intros Ha Hb. unfold equal_when_carried. kstep. kstep. kstep.
  eapply kwp_mono; [apply (kwp_foldM V _ (fun s => lcV (n_lc (snd s))))|].
  - intros s i _ Hs. now apply k_carry_step.
  - apply lcV_zero.
  - cbv beta. intros _ _. unfold bnV in *. kstep. eapply kwp_mono; [apply kwp_iterM; intros; kgo|]. intros _ _. apply kwp_iterM; intros; kgo.
Qed.
Lemma k_regroup a b : bnV a -> bnV b -> kwp (equal_when_carried_regroup a b) (fun _ => True).
Proof.
  intros Ha Hb. unfold equal_when_carried_regroup. kstep. kstep. kstep. kstep. kstep. kstep. kstep. apply kwp_lift. intros ga Ga.
  kstep. apply kwp_lift. intros gb Gb. kstep. apply k_ewc; [exact (group_limbs_V _ _ _ Ha Ga)|exact (group_limbs_V _ _ _ Hb Gb)].
Qed.
Hint Resolve k_full_bits k_min_bits k_ewc k_regroup : kwp.
Lemma k_verify_mult a b p : bnV a -> bnV b -> bnV p -> kwp (verify_mult a b p) (fun _ => True).
Proof. intros. unfold verify_mult. kgo. Qed.
Hint Resolve k_verify_mult : kwp.
Lemma k_divides a b : bnV a -> bnV b -> kwp (divides a b) (fun _ => True).
Proof. intros. unfold divides. kgo. Qed.
Lemma k_sub a b : bnV a -> bnV b -> kwp (Bignat.sub a b) bnV.
Proof.
  intros Ha Hb. unfold Bignat.sub. kstep. kstep. eapply kwp_mono; [apply k_alloc_from_nat|]. intros d Hd.
  kstep. apply kwp_lift. intros c G. pose proof (add_V _ _ _ Hb Hd G). kgo.
Qed.
Lemma k_mult a b : bnV a -> bnV b -> kwp (mult a b) bnV.
Proof.
  intros Ha Hb. unfold mult. kstep. kstep. kstep. kstep. eapply kwp_mono; [apply k_alloc_from_nat|]. cbv beta. intros p Hp.
  destruct (_ && _)%bool; [set (p' := set_min_bits p _); assert (bnV p') by exact Hp; clearbody p'|]; kgo.
Qed.
Lemma k_assert_product_mod a b m r : bnV a -> bnV b -> bnV m -> bnV r -> kwp (assert_product_mod a b m r) bnV.
Proof. intros. unfold assert_product_mod. kgo. Qed.
Lemma k_mult_mod a b m : bnV a -> bnV b -> bnV m -> kwp (mult_mod a b m) (fun p => bnV (fst p) /\ bnV (snd p)).
Proof. intros. unfold mult_mod. kgo. Qed.
Lemma k_red_mod a m : bnV a -> bnV m -> kwp (red_mod a m) bnV.
Proof. intros. unfold red_mod. kgo. Qed.

(** ** choice *)
Lemma k_gadget_alloc v p : kwp (gadget_alloc v p) bnV.
Proof. apply k_alloc_from_nat. Qed.
Lemma k_gadget_inputize b : bnV b -> kwp (gadget_inputize b) (fun _ => True).
Proof. intros H. apply kwp_iterM. intros [i l] Hin. cbn [fst snd]. pose proof (bnV_in _ _ _ H Hin). kgo. Qed.
Lemma k_as_nums b : bnV b -> kwp (as_nums b) (Forall (fun a => V (an_var a))).
Proof. intros H. apply kwp_mapM. intros [i l] Hin. cbn [fst snd]. pose proof (bnV_in _ _ _ H Hin). kgo. Qed.
Lemma k_mux_wires s w0 w1 wo : lcV (b_lc s) -> Forall lcV w0 -> Forall lcV w1 -> Forall lcV wo -> kwp (mux_wires s w0 w1 wo) (fun _ => True).
Proof.
  intros Hs H0 H1 Ho. apply kwp_iterM. intros [i [[l0 l1] lo]] Hin. apply in_combine_r in Hin.
  pose proof (in_combine_r _ _ _ _ Hin) as I3. apply in_combine_l in Hin. pose proof (in_combine_r _ _ _ _ Hin) as I2. apply in_combine_l in Hin.
  rewrite Forall_forall in H0, H1, Ho. specialize (H0 _ Hin). specialize (H1 _ I2). specialize (Ho _ I3). kgo.
Qed.
Lemma k_mux_default s a b : lcV (b_lc s) -> bnV a -> bnV b -> kwp (mux_default s a b) bnV.
Proof.
  intros Hs Ha Hb. unfold mux_default. kstep; [exact I|]. kstep. kstep. eapply kwp_mono; [apply k_gadget_alloc|]. intros o Ho.
  kstep; [exact I|]. kstep. eapply kwp_mono; [apply k_mux_wires; auto|]. intros _ _. exact Ho.
Qed.
Lemma k_mux s a b : lcV (b_lc s) -> bnV a -> bnV b -> kwp (mux s a b) bnV.
Proof.
  intros Hs Ha Hb. unfold mux. kstep. apply kwp_lift. intros a' Ga. kstep. apply kwp_lift. intros b' Gb.
  apply with_n_limbs_V in Ga; auto. apply with_n_limbs_V in Gb; auto. kstep; [exact I|]. kstep. kstep.
  eapply kwp_mono; [apply k_gadget_alloc|]. intros o Ho. kstep. eapply kwp_mono; [apply k_mux_wires; auto|]. intros _ _. exact Ho.
Qed.
Lemma k_mux_tree : forall bits inputs, Forall (fun b => lcV (b_lc b)) bits -> Forall bnV inputs -> kwp (mux_tree bits inputs) bnV.
Proof.
  induction bits as [|b bits IH]; intros inputs Hb Hi; cbn [mux_tree].
  - destruct inputs as [|x [|? ?]]; try exact I. now inversion Hi.
  - inversion Hb; subst. kstep; [exact I|]. set (h := (length inputs / 2)%nat). clearbody h.
    rewrite <- (firstn_skipn h inputs) in Hi. apply Forall_app in Hi. destruct Hi as [Hl Hr].
    kstep. kstep. eapply kwp_mono; [apply IH; auto|]. intros l Hl'. kstep. kstep. eapply kwp_mono; [apply IH; auto|]. intros r Hr'.
    kstep. now apply k_mux.
Qed.
Lemma bit_not_V s : lcV (b_lc s) -> lcV (b_lc (bit_not s)).
Proof. intros. simpl. auto with sco. Qed.
Hint Resolve bit_not_V : sco.
Hint Resolve k_sub k_mux : kwp.
Lemma k_switch s a b : lcV (b_lc s) -> bnV a -> bnV b -> kwp (switch s a b) (fun p => bnV (fst p) /\ bnV (snd p)).
Proof. intros. unfold switch. kgo. Qed.
Lemma k_assert_equal a b : bnV a -> bnV b -> kwp (assert_equal a b) (fun _ => True).
Proof.
  intros Ha Hb. unfold assert_equal. kstep; [exact I|]. apply kwp_iterM. intros [i [l r]] Hin. cbn [fst snd]. apply in_combine_r in Hin.
  pose proof (in_combine_r _ _ _ _ Hin) as I2. apply in_combine_l in Hin. unfold bnV in *. rewrite Forall_forall in Ha, Hb.
  specialize (Ha _ Hin). specialize (Hb _ I2). kgo.
Qed.
Lemma k_bn_min a b : bnV a -> bnV b -> kwp (bn_min a b) bnV.
Proof.
  intros Ha Hb. unfold bn_min. kstep. kstep. eapply kwp_mono; [apply k_bit_alloc|]. intros s Hs.
  kstep. kstep. eapply kwp_mono; [apply k_switch; auto|]. intros [l g] [Hl Hg]. kgo.
Qed.
End Gadgets.

Global Hint Resolve k_an_alloc k_an_add k_ab_alloc k_ab_and k_ab_and_not k_ab_nor k_bool_and k_bool_or k_bool_enforce_equal k_cond_reverse k_u64_bits k_sha k_bit_alloc k_bit_constrain k_num_alloc k_fits k_num_is_equal k_num_decompose k_as_sapling k_alloc_product k_alloc_from_limbs k_alloc_from_nat k_bn_inputize k_equal_ge k_equal k_equals k_is_equal k_well_formed k_bn_decompose k_from_num k_full_bits k_min_bits k_carry_step k_ewc k_regroup k_verify_mult k_divides k_sub k_mult k_assert_product_mod k_mult_mod k_red_mod k_gadget_alloc k_gadget_inputize k_as_nums k_mux_wires k_mux_default k_mux k_mux_tree k_switch k_assert_equal k_bn_min : kwp.
Global Hint Resolve weighted_vars_V weighted_bits_V lc_at_V poly_sum_V from_poly_V to_poly_V bn_one_V bit_not_V : sco.
