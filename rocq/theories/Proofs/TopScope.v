(** C102 from the calculus of Proofs/Scope.v. *)
From Coq Require Import String ZArith Bool List Lia Setoid Morphisms.
From Verif.Model Require Import Base CS Bellpepper Util Poly Bignat Gadget Median Difficulty HeaderStep ShaGadget RealHash.
From Verif.Spec Require Import Spec SpecUnique SpecScope.
From Verif.Proofs Require Import Scope ScopeH.
From Verif.Proofs Require Field Wp Unique TopUnique.
Import ListNotations.
Local Open Scope Z_scope.

Section TopScope.
Context {E : Env}.

Lemma grown_refl s : grown s s.
Proof. exists [], [], []. now rewrite !app_nil_r. Qed.
Lemma grown_trans s1 s2 s3 : grown s1 s2 -> grown s2 s3 -> grown s1 s3.
Proof.
  intros (i & a & c & H1 & H2 & H3) (i' & a' & c' & G1 & G2 & G3). exists (i ++ i'), (a ++ a'), (c' ++ c).
  rewrite G1, G2, G3, H1, H2, H3, !app_assoc. auto.
Qed.
Lemma top_grow {A} wit (m : prog A) : forall s r s', run wit m s = (r, s') -> grown s s'.
Proof.
  induction m as [a|e| |inp nm w k IH|nm c k IH|nm k IH|k IH]; intros s r s'; cbn [run]; intros H;
    try (injection H as <- <-; apply grown_refl).
  - assert (G : forall v, grown s (push_var inp nm v s)).
    { intros v. destruct inp; cbn; [exists [v], [], []|exists [], [v], []]; now rewrite !app_nil_r. }
    destruct wit; [destruct w|]; try (injection H as <- <-; apply grown_refl); eapply grown_trans; eauto.
  - eapply grown_trans; [|eapply IH; exact H]. exists [], [], [c]. cbn. now rewrite !app_nil_r.
  - eapply grown_trans; [|eapply IH; exact H]. exists [], [], []. cbn. now rewrite !app_nil_r.
  - eapply grown_trans; [|eapply IH; exact H]. exists [], [], []. cbn. now rewrite !app_nil_r.
Qed.

Lemma grown_known s s' v : grown s s' -> known s v -> known s' v.
Proof. intros (i & a & c & H1 & H2 & _). unfold known. rewrite H1, H2, !app_length. destruct v; lia. Qed.
Lemma grown_made s s' l : grown s s' -> made_of s l -> made_of s' l.
Proof. intros G H c v Hin. exact (grown_known _ _ _ G (H c v Hin)). Qed.
Lemma grown_mades s s' l : grown s s' -> Forall (made_of s) l -> Forall (made_of s') l.
Proof. intros G H. eapply Forall_impl; [|exact H]. intros x. now apply grown_made. Qed.
Lemma grown_bool s s' b : grown s s' -> bool_of s b -> bool_of s' b.
Proof. intros G. destruct b; cbn; auto; now apply grown_known. Qed.
Lemma grown_nums s s' l : grown s s' -> nums_of s l -> nums_of s' l.
Proof. intros G H. eapply Forall_impl; [|exact H]. intros x. now apply grown_known. Qed.
Lemma grown_bits s s' b : grown s s' -> bits_in s b -> bits_in s' b.
Proof. intros G [H1 H2]. split; [now apply (grown_mades s)|]. eapply Forall_impl; [|exact H2]. intros x. now apply grown_made. Qed.
Lemma grown_con s s' c : grown s s' -> con_of s c -> con_of s' c.
Proof. intros G. destruct c; cbn; intros H; repeat split; try (eapply grown_made; [exact G|apply H]); eapply grown_mades; try exact G; apply H. Qed.

Lemma next_known inp nm v s : known (push_var inp nm v s) (next_var inp s).
Proof. destruct inp; cbn; rewrite app_length; cbn; lia. Qed.

Lemma kwp_run {A} wit (m : prog A) (Q : A -> Prop) S : forall s r, run wit m s = (r, S) -> kwp (known S) m Q ->
  Forall (con_of S) (st_cons s) -> Forall (con_of S) (st_cons S) /\ forall a, r = Ok a -> Q a.
Proof.
  induction m as [a|e| |inp nm w k IH|nm c k IH|nm k IH|k IH]; intros s r H K F; cbn [run kwp] in *.
  - injection H as <- ->. split; auto. intros b Hb. now injection Hb as <-.
  - injection H as <- ->. split; auto. discriminate.
  - injection H as <- ->. split; auto. discriminate.
  - destruct wit; [destruct w as [z| |]|].
    + apply (IH _ _ _ _ H); auto. apply K. apply (grown_known _ _ _ (top_grow _ _ _ _ _ H)). apply next_known.
    + injection H as <- ->. split; auto. discriminate.
    + injection H as <- ->. split; auto. discriminate.
    + apply (IH _ _ _ _ H); auto. apply K. apply (grown_known _ _ _ (top_grow _ _ _ _ _ H)). apply next_known.
  - destruct K as [K1 K2]. apply (IH _ _ H K2). constructor; auto.
  - apply (IH _ _ H K F).
  - apply (IH _ _ H K F).
Qed.

Lemma scoped_of {A} (m : prog A) (P : st -> Prop) (Q : st -> A -> Prop) :
  (forall s s', grown s s' -> P s -> P s') -> (forall s, known s ONE -> P s -> kwp (known s) m (Q s)) -> scoped m P Q.
Proof.
  intros HP HK wit s r s' [H1 HC] Hp H. pose proof (top_grow _ _ _ _ _ H) as G.
  assert (O : known s' ONE) by exact (grown_known _ _ _ G H1).
  destruct (kwp_run _ _ _ _ _ _ H (HK s' O (HP _ _ G Hp))) as [F R].
  - eapply Forall_impl; [|exact HC]. intros c. now apply grown_con.
  - split; [split|]; auto.
Qed.

Lemma top_scope_init : closed st_init.
Proof. split; [cbn; lia|constructor]. Qed.
Lemma top_scope_bind {A B} (m : prog A) (f : A -> prog B) P Q R :
  scoped m P Q -> (forall a, scoped (f a) (fun s => Q s a) R) -> scoped (bind m f) P R.
Proof.
  intros H1 H2 wit s r s' C Hp H. rewrite Wp.run_bind in H. destruct (run wit m s) as [ra s1] eqn:G.
  destruct (H1 _ _ _ _ C Hp G) as [C1 R1]. destruct ra as [a|e|].
  - exact (H2 a _ _ _ _ C1 (R1 a eq_refl) H).
  - injection H as <- <-. split; [exact C1|discriminate].
  - injection H as <- <-. split; [exact C1|discriminate].
Qed.
Lemma top_scope_before {A} wit (m : prog A) s r s' rho : run wit m s = (r, s') -> sat rho s' -> sat rho s.
Proof.
  intros H [O F]. destruct (top_grow _ _ _ _ _ H) as (i & a & c & _ & _ & Hc). split; [exact O|]. rewrite Hc in F. now apply Forall_app in F.
Qed.
Lemma top_scope_values {A} wit (m : prog A) s r s' v : run wit m s = (r, s') -> known s v -> asg s' v = asg s v.
Proof.
  intros H K. destruct (top_grow _ _ _ _ _ H) as (i & a & c & H1 & H2 & _). unfold asg. rewrite H1, H2.
  destruct v; cbn in K; now rewrite app_nth1.
Qed.
Lemma top_scope_local (W : Wf E) s r1 r2 : closed s -> r1 ONE = 1 -> r2 ONE = 1 -> alike s r1 r2 -> sat r1 s -> sat r2 s.
Proof.
  intros [_ HC] O1 O2 HA [_ F]. split; [exact O2|]. rewrite Forall_forall in *. intros c Hin. specialize (HC c Hin). specialize (F c Hin).
  assert (L : forall l, made_of s l -> feval r1 l = feval r2 l).
  { intros l Hl. apply Field.eqp_eq. exact (Unique.made_of_leq _ _ _ _ HA Hl). }
  destruct c as [a b c|ins outs]; cbn [con_of csat] in *.
  - destruct HC as (Ha & Hb & Hc). apply L in Ha, Hb, Hc. rewrite <- Hc, <- F. unfold feval, fmk in *.
    now rewrite (Z.mul_mod (lc_eval r2 a)), (Z.mul_mod (lc_eval r1 a)), Ha, Hb by (pose proof Field.mod_pos; lia).
  - destruct HC as (Hi & Ho). rewrite Forall_forall in Hi, Ho.
    rewrite (map_ext_in _ _ outs (fun l Hl => eq_sym (L l (Ho l Hl)))), F. do 2 f_equal. apply map_ext_in. intros l Hl. now rewrite (L l (Hi l Hl)).
Qed.
Lemma top_scope_compose {A B} (m : prog A) (f : A -> prog B) P (R : A -> st -> assignment -> Prop) :
  determined m P -> (forall wit s a s' r, P s r -> run wit m s = (Ok a, s') -> sat r s' -> R a s' r) ->
  (forall a, determined (f a) (R a)) -> determined (bind m f) P.
Proof.
  intros H1 HR H2 wit s b s' r1 r2 Hp (H & S1 & S2 & HA). rewrite Wp.run_bind in H. destruct (run wit m s) as [ra s1] eqn:G.
  destruct ra as [a|e|]; try discriminate.
  assert (T1 : sat r1 s1) by (eapply top_scope_before; eauto). assert (T2 : sat r2 s1) by (eapply top_scope_before; eauto).
  apply (H2 a wit s1 b s' r1 r2); [eapply HR; eauto|]. split; [exact H|]. split; [exact S1|]. split; [exact S2|].
  apply (H1 wit s a s1 r1 r2 Hp). repeat split; try exact G; try apply T1; try apply T2; apply HA.
Qed.

(** ** the gadgets *)
Lemma grown_over s s' b : grown s s' -> over s b -> over s' b.
Proof. apply grown_mades. Qed.
Lemma grown_poly s s' b : grown s s' -> poly_of s b -> poly_of s' b.
Proof. apply grown_mades. Qed.
Lemma grown_all {A} (P : st -> A -> Prop) s s' l : (forall x, grown s s' -> P s x -> P s' x) -> grown s s' -> Forall (P s) l -> Forall (P s') l.
Proof. intros H G F. eapply Forall_impl; [|exact F]. auto. Qed.
Lemma grown_overs s s' l : grown s s' -> Forall (over s) l -> Forall (over s') l.
Proof. apply grown_all. intros. eapply grown_over; eauto. Qed.
Lemma grown_bools s s' l : grown s s' -> Forall (bool_of s) l -> Forall (bool_of s') l.
Proof. apply grown_all. intros. eapply grown_bool; eauto. Qed.
Lemma grown_sel s s' l : grown s s' -> Forall (fun x => made_of s (b_lc x)) l -> Forall (fun x => made_of s' (b_lc x)) l.
Proof. apply (grown_all (fun s x => made_of s (b_lc x))). intros. eapply grown_made; eauto. Qed.
Ltac mono := intros ?s ?s' ?G Hp; repeat match goal with H : _ /\ _ |- _ => destruct H end; repeat match goal with |- _ /\ _ => split end;
  solve [exact I|eauto using grown_known, grown_made, grown_mades, grown_bool, grown_nums, grown_bits, grown_over, grown_poly, grown_overs, grown_bools, grown_sel].
Ltac sc := apply scoped_of; [mono|intros s O Hp; repeat match goal with H : _ /\ _ |- _ => destruct H end; solve [eauto 8 with kwp]].

Ltac parts := repeat match goal with |- _ /\ _ => split end.
Lemma top_scope_alloc w f g mw lw n v p vb :
  scoped (an_alloc w) (fun _ => True) (fun s r => known s (an_var r)) /\
  scoped (num_alloc w) (fun _ => True) (fun s r => made_of s (n_lc r)) /\
  scoped (alloc_from_nat f lw n) (fun _ => True) (fun s r => over s r) /\
  scoped (alloc_from_limbs g mw lw n) (fun _ => True) (fun s r => over s r) /\
  scoped (gadget_alloc v p) (fun _ => True) (fun s r => over s r) /\
  scoped (bit_alloc vb) (fun _ => True) (fun s r => made_of s (b_lc r)) /\
  scoped (ab_alloc vb) (fun _ => True) (fun s r => known s (ab_var r)).
Proof. parts; sc. Qed.
Lemma top_scope_bits n k b bv :
  scoped (num_decompose n k) (fun s => made_of s (n_lc n)) (fun s r => bits_in s r) /\
  scoped (fits_in_bits n k) (fun s => made_of s (n_lc n)) (fun _ _ => True) /\
  scoped (num_is_equal n bv) (fun s => made_of s (n_lc n) /\ bits_in s bv) (fun _ _ => True) /\
  scoped (bn_decompose b) (fun s => over s b) (fun s r => bits_in s r) /\
  scoped (assert_well_formed b) (fun s => over s b) (fun _ _ => True) /\
  scoped (enforce_full_bits b) (fun s => over s b) (fun s r => over s r) /\
  scoped (enforce_min_bits b k) (fun s => over s b) (fun s r => over s r).
Proof. parts; sc. Qed.
Lemma top_scope_from_num n w k :
  scoped (from_num n w k) (fun s => made_of s (n_lc n)) (fun s r => over s r) /\
  scoped (as_sapling_allocated_num n) (fun s => made_of s (n_lc n)) (fun s r => known s (an_var r)).
Proof. parts; sc. Qed.
Lemma top_scope_copies b :
  scoped (bn_inputize b) (fun s => over s b) (fun _ _ => True) /\
  scoped (gadget_inputize b) (fun s => over s b) (fun _ _ => True) /\
  scoped (as_nums b) (fun s => over s b) (fun s r => nums_of s r).
Proof. parts; sc. Qed.
Lemma top_scope_poly p q :
  scoped (alloc_product p q) (fun s => poly_of s p /\ poly_of s q) (fun s r => poly_of s r).
Proof. parts; sc. Qed.
Lemma top_scope_equality a b x y :
  scoped (equal a b) (fun s => over s a /\ over s b) (fun _ _ => True) /\
  scoped (is_equal a b) (fun s => over s a /\ over s b) (fun s r => bool_of s r) /\
  scoped (assert_equal a b) (fun s => over s a /\ over s b) (fun _ _ => True) /\
  scoped (equals x y) (fun s => known s (an_var x) /\ known s (an_var y)) (fun s r => bool_of s r) /\
  scoped (equal_when_carried a b) (fun s => over s a /\ over s b) (fun _ _ => True) /\
  scoped (equal_when_carried_regroup a b) (fun s => over s a /\ over s b) (fun _ _ => True).
Proof. parts; sc. Qed.
Lemma top_scope_arith a b c d :
  scoped (verify_mult a b c) (fun s => over s a /\ over s b /\ over s c) (fun _ _ => True) /\
  scoped (mult a b) (fun s => over s a /\ over s b) (fun s r => over s r) /\
  scoped (divides a b) (fun s => over s a /\ over s b) (fun _ _ => True) /\
  scoped (Bignat.sub a b) (fun s => over s a /\ over s b) (fun s r => over s r) /\
  scoped (assert_product_mod a b c d) (fun s => over s a /\ over s b /\ over s c /\ over s d) (fun s r => over s r) /\
  scoped (mult_mod a b c) (fun s => over s a /\ over s b /\ over s c) (fun s r => over s (fst r) /\ over s (snd r)) /\
  scoped (red_mod a b) (fun s => over s a /\ over s b) (fun s r => over s r).
Proof. parts; sc. Qed.
Lemma top_scope_choice x a b xs bs :
  scoped (mux x a b) (fun s => made_of s (b_lc x) /\ over s a /\ over s b) (fun s r => over s r) /\
  scoped (mux_default x a b) (fun s => made_of s (b_lc x) /\ over s a /\ over s b) (fun s r => over s r) /\
  scoped (switch x a b) (fun s => made_of s (b_lc x) /\ over s a /\ over s b) (fun s r => over s (fst r) /\ over s (snd r)) /\
  scoped (mux_tree xs bs) (fun s => Forall (fun x => made_of s (b_lc x)) xs /\ Forall (over s) bs) (fun s r => over s r) /\
  scoped (bn_min a b) (fun s => over s a /\ over s b) (fun s r => over s r).
Proof. parts; sc. Qed.
Lemma top_scope_logic a b x y :
  scoped (bool_and a b) (fun s => bool_of s a /\ bool_of s b) (fun s r => bool_of s r) /\
  scoped (bool_or a b) (fun s => bool_of s a /\ bool_of s b) (fun s r => bool_of s r) /\
  scoped (bool_enforce_equal a b) (fun s => bool_of s a /\ bool_of s b) (fun _ _ => True) /\
  scoped (an_add x y) (fun s => known s (an_var x) /\ known s (an_var y)) (fun s r => known s (an_var r)) /\
  scoped (an_conditionally_reverse x y a) (fun s => known s (an_var x) /\ known s (an_var y) /\ bool_of s a) (fun s r => known s (an_var (fst r)) /\ known s (an_var (snd r))).
Proof. parts; sc. Qed.
Lemma top_scope_compare x y n ts m :
  scoped (less_than x y n) (fun s => known s (an_var x) /\ known s (an_var y)) (fun s r => bool_of s r) /\
  scoped (leq x y n) (fun s => known s (an_var x) /\ known s (an_var y)) (fun s r => bool_of s r) /\
  scoped (verify_median_timestamp ts m) (fun _ => True) (fun s r => bool_of s r).
Proof. parts; sc. Qed.
Lemma top_scope_difficulty cu cl pu pl t x y :
  scoped (verify_difficulty_update cu cl pu pl t) (fun _ => True) (fun _ _ => True) /\
  scoped (calculate_difficulty_update x y) (fun s => known s (an_var x) /\ known s (an_var y)) (fun s r => over s r) /\
  scoped (verify_current_hash cu cl pu pl) (fun _ => True) (fun s r => bool_of s r).
Proof. parts; sc. Qed.
Lemma top_scope_hash ins b h v :
  scoped (u64_into_boolean_vec_le v) (fun _ => True) (fun s r => Forall (bool_of s) r) /\
  scoped (sha256_gadget ins) (fun s => Forall (bool_of s) ins) (fun s r => Forall (bool_of s) r) /\
  scoped (sha256_r1cs ins) (fun s => Forall (bool_of s) ins) (fun s r => Forall (bool_of s) r) /\
  scoped (check_prev_hash b h) (fun _ => True) (fun _ _ => True) /\
  scoped (check_prev_hash_r1cs b h) (fun _ => True) (fun _ _ => True).
Proof.
  parts.
  - sc.
  - sc.
  - apply scoped_of; [mono|]. intros s O Hp. exact (k_sha_r1cs (known s) O ins Hp).
  - apply scoped_of; [mono|]. intros s O Hp. exact (k_check_prev_by (known s) O sha256_gadget (k_sha (known s) O) b h).
  - apply scoped_of; [mono|]. intros s O Hp. exact (k_check_prev_by (known s) O sha256_r1cs (k_sha_r1cs (known s) O) b h).
Qed.
Lemma top_scope_step zo h z :
  scoped (synthesize_with zo h z) (fun s => nums_of s zo /\ nums_of s z) (fun s r => nums_of s r) /\
  scoped (synthesize h z) (fun s => nums_of s z) (fun s r => nums_of s r) /\
  scoped (synthesize_r1cs zo h z) (fun s => nums_of s zo /\ nums_of s z) (fun s r => nums_of s r).
Proof.
  parts; (apply scoped_of; [mono|]).
  - intros s O [H1 H2]. exact (k_synthesize_by (known s) O sha256_gadget (k_sha (known s) O) zo h z H1 H2).
  - intros s O H. exact (k_synthesize_by (known s) O sha256_gadget (k_sha (known s) O) [] h z (Forall_nil _) H).
  - intros s O [H1 H2]. exact (k_synthesize_by (known s) O sha256_r1cs (k_sha_r1cs (known s) O) zo h z H1 H2).
Qed.

Lemma top_scope_reshape s a b c k z w bv p q mw ns :
  (group_limbs a k = Ok c -> over s a -> over s c) /\
  (concat a b = Ok c -> over s a -> over s b -> over s c) /\
  (Bignat.add a b = Ok c -> over s a -> over s b -> over s c) /\
  (with_n_limbs a k = Ok c -> over s a -> over s c) /\
  (truncate_limbs a k = Ok c -> over s a -> over s c) /\
  (shift a z = Ok c -> known s ONE -> over s a -> over s c) /\
  (scale a z = Ok c -> over s a -> over s c) /\
  (recompose bv w = Ok c -> bits_in s bv -> over s c) /\
  (as_limbs a = Ok ns -> over s a -> Forall (fun n => made_of s (n_lc n)) ns) /\
  (Forall (fun n => made_of s (n_lc n)) ns -> over s (from_limbs ns w)) /\
  (poly_of s p -> poly_of s q -> poly_of s (poly_sum p q) /\ over s (from_poly p w mw)) /\
  (over s a -> poly_of s (to_poly a)) /\ (known s ONE -> over s (bn_one w)).
Proof.
  parts; intros H.
  - intros; eapply (group_limbs_V (known s)); eauto.
  - intros; eapply (concat_V (known s) a b); eauto.
  - intros; eapply (add_V (known s) a b); eauto.
  - intros; eapply (with_n_limbs_V (known s)); eauto.
  - intros; eapply (truncate_V (known s)); eauto.
  - intros; eapply (shift_V (known s)); eauto.
  - intros; eapply (scale_V (known s)); eauto.
  - intros; eapply (recompose_V (known s)); eauto.
  - intros G. exact (as_limbs_V (known s) a ns G H).
  - exact (from_limbs_V (known s) ns w H).
  - intros G. split; [exact (poly_sum_V (known s) p q H G)|exact (from_poly_V (known s) p w mw H)].
  - exact (to_poly_V (known s) a H).
  - exact (bn_one_V (known s) H w).
Qed.

Lemma all_kwp {A} (m : prog A) : kwp (fun _ => True) m (fun _ => True).
Proof.
  induction m as [a|e| |inp nm w k IH|nm c k IH|nm k IH|k IH]; cbn [kwp]; auto. split; [|exact IH].
  destruct c; cbn; repeat split; try (intros ? ? ?; exact I); apply Forall_forall; intros ? ? ? ? ?; exact I.
Qed.
Lemma from_num_width wit n w k s b s' : run wit (from_num n w k) s = (Ok b, s') -> limb_width (bparams b) = w.
Proof.
  intros H. assert (K : kwp (fun _ => True) (from_num n w k) (fun b => limb_width (bparams b) = w)).
  { unfold from_num. apply kwp_bind, kwp_ns. eapply kwp_mono with (Q := fun b => limb_width (bparams b) = w).
    - unfold alloc_from_nat. apply kwp_bind. eapply kwp_mono; [apply kwp_mapM with (R := fun _ => True); intros; exact (fun _ _ _ => I)|].
      intros xs _. destruct (match captured xs with [] => _ | _ => _ end). reflexivity.
    - intros c Hc. apply kwp_bind, kwp_ns. eapply kwp_mono; [apply (all_kwp (bn_decompose c))|]. intros bv _. apply kwp_bind, kwp_ns.
      eapply kwp_mono; [apply (all_kwp (num_is_equal n bv))|]. intros _ _. exact Hc. }
  clear -H K. revert s H K. generalize (from_num n w k). intros m.
  induction m as [a|e| |inp nm u l IH|nm c l IH|nm l IH|l IH]; intros s H K; cbn [run kwp] in *; try discriminate.
  - now injection H as <- <-.
  - destruct wit; [destruct u|]; try discriminate; eapply IH; eauto; apply K; exact I.
  - destruct K. eauto.
  - eauto.
  - eauto.
Qed.

(** Chaining determined gadgets: cut into limbs, bounded below, copied. *)
Lemma top_scope_pipeline (W : Wf E) n w k j : (w < NUM_BITS)%nat -> (w * k < NUM_BITS)%nat ->
  determined (let! b := from_num n w k in let! c := enforce_min_bits b j in as_nums c) (fun s _ => closed s /\ made_of s (n_lc n)).
Proof.
  intros Hw Hk. destruct (top_scope_from_num n w k) as [SF _].
  apply top_scope_compose with (R := fun b s _ => closed s /\ over s b /\ limb_width (bparams b) = w).
  - intros wit s a s' r1 r2 [_ Hn] H. exact (proj1 (TopUnique.top_unique_from_num _ _ _ _ _ _ _ _ _ H Hn Hw Hk)).
  - intros wit s a s' r [C Hn] H _. destruct (SF _ _ _ _ C Hn H) as [C' O]. split; [exact C'|]. split; [exact (O a eq_refl)|].
    apply (from_num_width wit n w k s a s' H).
  - intros b. destruct (top_scope_bits n j b (mkBV [] None [])) as (_ & _ & _ & _ & _ & _ & SM).
    apply top_scope_compose with (R := fun c s _ => closed s /\ over s c).
    + intros wit s a s' r1 r2 (C & O & L) H. apply (TopUnique.top_unique_top_bits wit b j s a s' r1 r2 (or_intror H) O). now rewrite L.
    + intros wit s a s' r (C & O & L) H _. destruct (SM _ _ _ _ C O H) as [C' O']. auto.
    + intros c wit s a s' r1 r2 [C O] H. apply (TopUnique.top_unique_copies wit c s tt a s' r1 r2); auto.
Qed.
End TopScope.
