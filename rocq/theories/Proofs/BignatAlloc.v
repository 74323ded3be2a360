(** src/mp/bignat.rs: allocation, range checks and decomposition (C17-C21). *)
From Coq Require Import ZArith Bool String List Lia Setoid Morphisms ZifyBool ZifyNat.
From Verif.Model Require Import Base CS Bellpepper Util Poly Bignat.
From Verif.Spec Require Import Spec.
From Verif.Proofs Require Import Field Arith Convert Limbs Wp Lc BitNum PolyP.
Import ListNotations.
Local Open Scope Z_scope.
Local Open Scope list_scope.

Lemma map_nth_seq {A} (l : list A) d : map (fun i => nth i l d) (seq 0 (List.length l)) = l.
Proof.
  apply (nth_ext _ _ d d); rewrite map_length, seq_length; auto.
  intros i Hi. rewrite (nth_indep _ d (nth 0 l d)) by (rewrite map_length, seq_length; lia).
  rewrite (map_nth (fun i => nth i l d) _ 0%nat), seq_nth; auto.
Qed.
Lemma combine_seq_map {A} (l : list A) d :
  combine (seq 0 (List.length l)) l = map (fun i => (i, nth i l d)) (seq 0 (List.length l)).
Proof.
  rewrite <- (map_nth_seq l d) at 2. generalize (seq 0 (List.length l)). intros s.
  induction s; simpl; f_equal; auto.
Qed.
Lemma mapM_map {A B C} (g : A -> B) (f : B -> prog C) l : mapM f (map g l) = mapM (fun x => f (g x)) l.
Proof. induction l; simpl; auto. now rewrite IHl. Qed.
Lemma iterM_map {A B} (g : A -> B) (f : B -> prog unit) l : iterM f (map g l) = iterM (fun x => f (g x)) l.
Proof. induction l; simpl; auto. now rewrite IHl. Qed.
Lemma flat_map_single {A B} (f : A -> B) l : flat_map (fun x => [f x]) l = map f l.
Proof. induction l; simpl; f_equal; auto. Qed.
Lemma flat_map_seq_nth {A B} (f : A -> list B) l d :
  flat_map (fun i => f (nth i l d)) (seq 0 (List.length l)) = flat_map f l.
Proof.
  rewrite <- (map_nth_seq l d) at 2. generalize (seq 0 (List.length l)). intros s.
  induction s; simpl; f_equal; auto.
Qed.

(** Programs that emit no constraint. *)
Fixpoint no_con {A} (m : prog A) : Prop :=
  match m with
  | Ret _ | Fail _ | Crash => True
  | Alloc _ _ _ k => forall x v, no_con (k x v)
  | Enforce _ _ _ => False
  | Push _ k | Pop k => no_con k
  end.
Lemma no_con_bind {A B} (m : prog A) (f : A -> prog B) : no_con m -> (forall a, no_con (f a)) ->
  no_con (bind m f).
Proof. induction m; simpl; intros; auto; tauto. Qed.
Lemma no_con_mapM {A B} (f : A -> prog B) l : (forall a, no_con (f a)) -> no_con (mapM f l).
Proof.
  intros H. induction l; simpl; auto. apply no_con_bind; auto. intros b.
  apply no_con_bind; auto. simpl; auto.
Qed.
Lemma no_con_run {A} wit (m : prog A) : forall s, no_con m -> st_cons (snd (run wit m s)) = st_cons s.
Proof.
  induction m as [a|e| |inp nm w k IH|nm c k IH|nm k IH|k IH]; intros s H; simpl in *; auto; try tauto.
  - destruct wit; [destruct w|]; auto; rewrite IH; auto.
  - rewrite IH; auto.
  - rewrite IH; auto.
Qed.

Section BignatAlloc.
Context {E : Env} {W : Wf E}.

(** Recorded limb values, if any, are as many as the limbs. *)
Definition lv_ok (b : bignat) : Prop :=
  match limb_values b with
  | Some vs => List.length vs = List.length (limbs b) /\ Forall canon vs
  | None => True
  end.

Lemma nat_to_limbs_canon v w n vs : nat_to_limbs v w n = Ok vs -> List.length vs = n /\ Forall canon vs.
Proof.
  unfold nat_to_limbs. destruct (_ <=? _)%nat; [|discriminate]. rewrite split_limbs_spec.
  intros H. injection H as <-. split; [now rewrite map_length, seq_length|].
  apply Forall_map, Forall_forall. intros. apply fmk_canon.
Qed.

Definition limb_num (b : bignat) (i : nat) : res num :=
  match limb_values b with
  | None => Ok (mkNum (nth i (limbs b) lc_zero) None)
  | Some vs => let? v := idx vs i in Ok (mkNum (nth i (limbs b) lc_zero) (Some v))
  end.
Lemma limb_nums_seq b : combine (seq 0 (List.length (limbs b))) (limb_nums b) =
  map (fun i => (i, limb_num b i)) (seq 0 (List.length (limbs b))).
Proof.
  unfold limb_nums. rewrite (combine_seq_map (limbs b) lc_zero), map_map. cbn [fst snd].
  generalize (seq 0 (List.length (limbs b))). intros l.
  induction l as [|i l IH]; cbn [map combine]; f_equal; auto.
Qed.
Lemma limb_num_lc b i n : limb_num b i = Ok n -> n_lc n = nth i (limbs b) lc_zero.
Proof.
  unfold limb_num. destruct (limb_values b) as [vs|].
  - destruct (idx vs i); cbn [rbind]; intros H; try discriminate. injection H as <-. reflexivity.
  - intros H; injection H as <-; reflexivity.
Qed.
Lemma limb_num_ok b i : lv_ok b -> (i < List.length (limbs b))%nat ->
  limb_num b i = Ok (mkNum (nth i (limbs b) lc_zero) (option_map (fun vs => nth i vs 0) (limb_values b))).
Proof.
  unfold lv_ok, limb_num. destruct (limb_values b) as [vs|]; auto. intros [HL _] Hi.
  unfold idx. rewrite (nth_error_nth' vs 0) by lia. reflexivity.
Qed.

Section Rho.
Context (rho : assignment) (one : rho ONE = 1).

(** What is known of a big natural whose limb wires have the values [vs]. *)
Definition is_bn (md : mode) (b : bignat) (vs : list Z) : Prop :=
  ev rho (limbs b) vs /\ lv_ok b /\ n_limbs (bparams b) = List.length vs /\ Forall canon vs /\
  (md = Honest -> limb_values b = Some vs /\
     value b = Some (value_of (2 ^ Z.of_nat (limb_width (bparams b))) vs)).

Definition in_word (b : bignat) (vs : list Z) : Prop :=
  Forall (fun v => 0 <= v <= max_word (bparams b)) vs.

(** ** Allocation *)
Lemma limbs_alloc_awp md (clos : nat -> res Z) ys : 
  (md = Honest -> forall i, (i < List.length ys)%nat -> clos i = Ok (nth i ys 0)) ->
  forall Q : list (var * option Z) -> Prop, (forall xs, ev rho (xs_lcs xs) ys ->
     (md = Honest -> captured xs = ys) ->
     (md = Any -> Forall2 (fun i z => clos i = Ok z) (seq 0 (List.length ys)) (captured xs)) ->
     (md = Shape -> captured xs = []) -> Q xs) ->
  awp md rho (mapM (fun i => alloc (Nmi "limb "%string i ""%string) (clos i)) (seq 0 (List.length ys))) ys Q.
Proof.
  intros Hh Q HQ.
  assert (Hys : ys = flat_map (fun i => [nth i ys 0]) (seq 0 (List.length ys)))
    by (rewrite flat_map_single; symmetry; apply map_nth_seq).
  rewrite Hys at 2.
  apply (awp_mapM _ _ _ _ (fun i p => rho (fst p) = nth i ys 0 /\ vpred md (clos i) (nth i ys 0) (snd p))).
  { intros i Hi. apply in_seq in Hi. astep.
    - intros Hm. apply Hh; auto; lia.
    - intros x v Hx Hv. auto. }
  intros xs Hxs. apply HQ; clear Hys HQ Hh.
  - rewrite <- (map_nth_seq ys 0). unfold xs_lcs, ev.
    induction Hxs as [|i p l xs [H1 _] _ IH]; cbn [map]; constructor.
    + lcs. now rewrite H1.
    + exact IH.
  - intros ->. rewrite <- (map_nth_seq ys 0).
    induction Hxs as [|i p l xs [_ H1] _ IH]; cbn [captured flat_map map]; auto.
    rewrite H1. cbn [app]. f_equal. apply IH.
  - intros ->. induction Hxs as [|i p l xs [_ H1] _ IH]; cbn [captured flat_map map]; auto.
    destruct H1 as (z & Hz & ->). cbn [app]. constructor; auto.
  - intros ->. clear -Hxs. induction Hxs as [|i p l xs [_ H1] _ IH]; auto.
    cbn [captured flat_map]. rewrite H1. exact IH.
Qed.

Lemma limbs_alloc_swp md (clos : nat -> res Z) n : forall Q : list (var * option Z) -> Prop,
  (forall xs, List.length (xs_lcs xs) = n -> Q xs) ->
  swp md rho (mapM (fun i => alloc (Nmi "limb "%string i ""%string) (clos i)) (seq 0 n)) Q.
Proof.
  intros Q HQ. apply (swp_mapM _ _ _ (fun _ _ => True)).
  - intros i _. sstep. auto.
  - intros xs Hxs. apply HQ. unfold xs_lcs. rewrite map_length.
    apply Forall2_length in Hxs. now rewrite seq_length in Hxs.
Qed.

Lemma alloc_from_nat_swp md f w n (Q : bignat -> Prop) :
  (forall b, bparams b = params_new w n -> List.length (limbs b) = n -> Q b) ->
  swp md rho (alloc_from_nat f w n) Q.
Proof.
  intros HQ. unfold alloc_from_nat. sstep. apply limbs_alloc_swp. intros xs HL.
  destruct (match captured xs with [] => _ | _ => _ end) as [v l]. sstep. apply HQ; auto.
Qed.

Lemma alloc_from_limbs_swp md f mw w n (Q : bignat -> Prop) :
  (forall b, bparams b = mkParams 0 (match mw with Some m => m | None => int_with_n_ones w end) w n ->
     List.length (limbs b) = n -> Q b) ->
  swp md rho (alloc_from_limbs f mw w n) Q.
Proof.
  intros HQ. unfold alloc_from_limbs. sstep. apply limbs_alloc_swp. intros xs HL.
  destruct (match captured xs with [] => _ | _ => _ end) as [v l]. sstep. apply HQ; auto.
Qed.

Lemma alloc_from_nat_awp md f w n ys (Q : bignat -> Prop) : List.length ys = n -> Forall canon ys ->
  (md = Honest -> (1 <= n)%nat /\ (w < NUM_BITS)%nat /\ exists v, f = Ok v /\
      0 <= v < 2 ^ Z.of_nat (w * n) /\ ys = map (digit w v) (seq 0 n)) ->
  (forall b, is_bn md b ys -> bparams b = params_new w n -> Q b) ->
  awp md rho (alloc_from_nat f w n) ys Q.
Proof.
  intros HL HC Hh HQ. unfold alloc_from_nat. apply awp_bind_all. subst n.
  set (all := rbind f _).
  assert (Hall : md = Honest -> exists v, all = Ok (ys, v) /\
     v = value_of (2 ^ Z.of_nat w) ys).
  { intros Hm. destruct (Hh Hm) as (Hn & Hw & v & -> & Hv & Hys). exists v. unfold all. cbn [rbind].
    rewrite nat_to_limbs_digits by auto. cbn [rbind]. rewrite <- Hys. split; auto.
    rewrite Hys, digits_value, Z.mod_small; auto. }
  apply limbs_alloc_awp.
  { intros Hm i Hi. destruct (Hall Hm) as (v & -> & _). unfold idx.
    rewrite (nth_error_nth' ys 0) by lia. reflexivity. }
  intros xs Hev Hcap Hany Hsh.
  destruct md.
  - (* Any *)
    specialize (Hany eq_refl). pose proof (Forall2_length _ _ _ Hany) as HL. rewrite seq_length in HL.
    assert (Hc : captured xs <> [] -> exists vs v, all = Ok (vs, v) /\ Forall canon (captured xs)).
    { intros Hne. destruct all as [[vs v]| |] eqn:Ea.
      - exists vs, v. split; auto.
        assert (Cvs : Forall canon vs).
        { unfold all in Ea. apply rbind_ok in Ea. destruct Ea as (v0 & _ & Ea).
          apply rbind_ok in Ea. destruct Ea as (vs0 & Ea & Eb). injection Eb as <- <-.
          now apply nat_to_limbs_canon in Ea. }
        clear -Hany Cvs. induction Hany as [|i z l cs H1 _ IH]; constructor; auto.
        unfold idx in H1. destruct (nth_error vs i) eqn:En; [|discriminate]. injection H1 as <-.
        rewrite Forall_forall in Cvs. apply Cvs. eapply nth_error_In; eauto.
      - destruct (captured xs); [congruence|]. inversion Hany; subst. discriminate.
      - destruct (captured xs); [congruence|]. inversion Hany; subst. discriminate. }
    destruct (captured xs) as [|c cs] eqn:Ec.
    + astep. apply HQ; auto. split; [exact Hev|]. split; [exact I|]. split; [reflexivity|].
      split; [exact HC|]. discriminate.
    + destruct Hc as (vs & v & -> & Hcc); [discriminate|]. astep. apply HQ; auto.
      split; [exact Hev|]. split; [|split; [reflexivity|split; [exact HC|discriminate]]].
      split; [|exact Hcc]. cbn [limbs]. rewrite <- HL. symmetry. apply (Forall2_length _ _ _ Hev).
  - (* Honest *)
    destruct (Hall eq_refl) as (v & -> & Hv). rewrite (Hcap eq_refl). destruct (Hh eq_refl) as (Hn & _).
    destruct ys as [|y ys]; [cbn in Hn; lia|]. astep. apply HQ; auto.
    split; [exact Hev|]. split; [|split; [reflexivity|split; [exact HC|]]].
    + split; [symmetry; apply (Forall2_length _ _ _ Hev)|exact HC].
    + intros _. cbn [limb_values value bparams params_new limb_width]. rewrite Hv. auto.
  - rewrite (Hsh eq_refl). astep. apply HQ; auto.
    split; [exact Hev|]. split; [exact I|split; [reflexivity|split; [exact HC|discriminate]]].
Qed.

Lemma alloc_from_limbs_awp md f mw w n ys (Q : bignat -> Prop) : List.length ys = n -> Forall canon ys ->
  (forall vs, f = Ok vs -> Forall canon vs) ->
  (md = Honest -> (1 <= n)%nat /\ f = Ok ys) ->
  (forall b, is_bn md b ys ->
     bparams b = mkParams 0 (match mw with Some m => m | None => int_with_n_ones w end) w n -> Q b) ->
  awp md rho (alloc_from_limbs f mw w n) ys Q.
Proof.
  intros HL HC Hf Hh HQ. unfold alloc_from_limbs. apply awp_bind_all. subst n.
  apply limbs_alloc_awp.
  { intros Hm i Hi. destruct (Hh Hm) as (_ & ->). rewrite Nat.eqb_refl. unfold idx.
    rewrite (nth_error_nth' ys 0) by lia. reflexivity. }
  intros xs Hev Hcap Hany Hsh.
  destruct md.
  - specialize (Hany eq_refl). pose proof (Forall2_length _ _ _ Hany) as HL. rewrite seq_length in HL.
    destruct (captured xs) as [|c cs] eqn:Ec.
    + astep. apply HQ; auto. split; [exact Hev|]. split; [exact I|]. split; [reflexivity|].
      split; [exact HC|]. discriminate.
    + assert (Hv : exists vs, f = Ok vs /\ List.length vs = List.length ys).
      { inversion Hany as [|i z l cs' H1 _ H2]; subst. destruct f as [vs| |]; try discriminate.
        exists vs. split; auto. destruct (Nat.eqb_spec (List.length vs) (List.length ys)); auto; discriminate. }
      destruct Hv as (vs & -> & HL'). astep. apply HQ; auto.
      split; [exact Hev|]. split; [|split; [reflexivity|split; [exact HC|discriminate]]].
      split; [|cbn [limb_values]; auto]. cbn [limbs]. rewrite HL'.
      symmetry. apply (Forall2_length _ _ _ Hev).
  - destruct (Hh eq_refl) as (Hn & ->). rewrite (Hcap eq_refl).
    destruct ys as [|y ys]; [cbn in Hn; lia|]. astep. apply HQ; auto.
    split; [exact Hev|]. split; [|split; [reflexivity|split; [exact HC|]]].
    + split; [symmetry; apply (Forall2_length _ _ _ Hev)|exact HC].
    + intros _. cbn [limb_values value bparams params_new limb_width].
      rewrite limbs_to_nat_canon by auto. auto.
  - rewrite (Hsh eq_refl). astep. apply HQ; auto.
    split; [exact Hev|]. split; [exact I|split; [reflexivity|split; [exact HC|discriminate]]].
Qed.

(** ** assert_well_formed *)
Lemma assert_well_formed_swp md b : swp md rho (assert_well_formed b) (fun _ =>
  Forall (fun v => 0 <= v < 2 ^ Z.of_nat (width1 (limb_width (bparams b)))) (wires rho (limbs b))).
Proof.
  unfold assert_well_formed. rewrite limb_nums_seq, iterM_map. cbn [fst snd].
  apply (swp_iterM _ _ _ (fun i => 0 <= feval rho (nth i (limbs b) lc_zero) <
     2 ^ Z.of_nat (width1 (limb_width (bparams b))))).
  - intros i _. sstep. sstep. intros n Hn. sstep.
    eapply swp_mono; [apply fits_in_bits_swp; auto|]. intros u (bs & Hl & He).
    rewrite <- (limb_num_lc _ _ _ Hn). eapply bits_feval; eauto.
  - intros H. apply Forall_map, Forall_forall. intros l Hl.
    apply (In_nth _ _ lc_zero) in Hl. destruct Hl as (i & Hi & <-). apply H, in_seq. lia.
Qed.

Lemma assert_well_formed_awp md b ys : is_bn md b ys ->
  Forall (fun v => v < 2 ^ Z.of_nat (width1 (limb_width (bparams b)))) ys ->
  (md = Honest -> (limb_width (bparams b) <= NUM_BITS)%nat) ->
  awp md rho (assert_well_formed b) (flat_map (fun y => fits_aux y (limb_width (bparams b))) ys)
    (fun _ => True).
Proof.
  intros (Hev & Hlv & Hn & Hc & Hh) HR HW. unfold assert_well_formed.
  rewrite limb_nums_seq, iterM_map. cbn [fst snd].
  rewrite (ev_length _ _ _ Hev).
  rewrite <- (flat_map_seq_nth (fun y => fits_aux y (limb_width (bparams b))) ys 0).
  apply awp_iterM; auto. intros i Hi. apply in_seq in Hi.
  assert (Hin : In (nth i ys 0) ys) by (apply nth_In; lia).
  rewrite Forall_forall in HR, Hc. specialize (HR _ Hin). specialize (Hc _ Hin).
  apply awp_bind_nil. eapply awp_lift.
  { apply limb_num_ok; auto. rewrite (ev_length _ _ _ Hev). lia. }
  astep. apply fits_in_bits_awp; auto; cbn [n_lc n_val].
  - now apply ev_nth.
  - destruct Hc; lia.
  - intros Hm. destruct (Hh Hm) as [-> _]. cbn [option_map]. auto.
Qed.

(** ** decompose *)
Lemma bits_value_concat w bss : Forall (fun bs => List.length bs = w) bss ->
  bits_value (List.concat bss) = value_of (2 ^ Z.of_nat w) (map bits_value bss).
Proof.
  induction 1 as [|bs bss HL _ IH]; [reflexivity|]. cbn [List.concat map value_of].
  unfold bits_value in *. rewrite map_app, value_of_app, map_length, HL, IH. reflexivity.
Qed.

Lemma wire_bits_concat (xs : list bitvector) bss :
  Forall2 (fun bv bs => wire_bits rho (bv_bits bv) bs) xs bss ->
  wire_bits rho (flat_map bv_bits xs) (List.concat bss).
Proof.
  induction 1 as [|x bs xs bss H _ IH]; cbn [flat_map List.concat]; [constructor|].
  now apply Forall2_app.
Qed.

Lemma bn_decompose_swp md b : swp md rho (bn_decompose b) (fun bv =>
  exists bss, Forall2 (fun l bs => List.length bs = limb_width (bparams b) /\
      eqp (lc_eval rho l) (bits_value bs)) (limbs b) bss /\ wire_allocs rho bv (List.concat bss)).
Proof.
  unfold bn_decompose. sstep. rewrite limb_nums_seq, mapM_map. cbn [fst snd].
  apply (swp_mapM _ _ _ (fun i bv => exists bs, List.length bs = limb_width (bparams b) /\
      wire_allocs rho bv bs /\ eqp (lc_eval rho (nth i (limbs b) lc_zero)) (bits_value bs))).
  { intros i _. do 2 sstep. intros n Hn. sstep.
    eapply swp_mono; [apply num_decompose_swp; auto|]. intros bv (bs & H1 & H2 & H3 & _).
    rewrite (limb_num_lc _ _ _ Hn) in H3. eauto. }
  intros xs Hxs. sstep. unfold wire_allocs. cbn [bv_bits bv_allocs].
  assert (G : exists bss, Forall2 (fun i bs => List.length bs = limb_width (bparams b) /\
      eqp (lc_eval rho (nth i (limbs b) lc_zero)) (bits_value bs)) (seq 0 (List.length (limbs b))) bss /\
      Forall2 (fun bv bs => wire_allocs rho bv bs) xs bss).
  { induction Hxs as [|i bv l xs (bs & H1 & H2 & H3) _ (bss & IH1 & IH2)].
    - exists []. split; constructor.
    - exists (bs :: bss). split; constructor; auto. }
  destruct G as (bss & G1 & G2). exists bss. split; [|split].
  - clear -G1. assert (T : forall l bss, Forall2 (fun i bs => List.length bs = limb_width (bparams b) /\
      eqp (lc_eval rho (nth i (limbs b) lc_zero)) (bits_value bs)) l bss ->
      Forall2 (fun l bs => List.length bs = limb_width (bparams b) /\ eqp (lc_eval rho l) (bits_value bs))
        (map (fun i => nth i (limbs b) lc_zero) l) bss).
    { induction 1; simpl; constructor; auto. }
    apply T in G1. now rewrite map_nth_seq in G1.
  - clear -G2. induction G2 as [|x bs xs bss [H1 _] _ IH]; auto. cbn [flat_map].
    now rewrite map_app, H1, IH.
  - apply wire_bits_concat. clear -G2. induction G2 as [|x bs xs bss [_ H1] _ IH]; constructor; auto.
Qed.

Definition bits_of (w : nat) (v : Z) : list bool := map (fun i => Z.testbit v (Z.of_nat i)) (seq 0 w).
Lemma bits_of_length w v : List.length (bits_of w v) = w.
Proof. unfold bits_of. now rewrite map_length, seq_length. Qed.
Lemma bits_of_value w v : 0 <= v < 2 ^ Z.of_nat w -> bits_value (bits_of w v) = v.
Proof. intros H. unfold bits_of. rewrite testbits_value_0, Z.mod_small; lia. Qed.

Lemma bits_value_of_limbs w ys : Forall (fun v => 0 <= v < 2 ^ Z.of_nat w) ys ->
  bits_value (flat_map (bits_of w) ys) = value_of (2 ^ Z.of_nat w) ys.
Proof.
  intros H. rewrite flat_map_concat_map, (bits_value_concat w).
  - rewrite map_map. f_equal. rewrite <- (map_id ys) at 2. apply map_ext_in. intros v Hv.
    rewrite Forall_forall in H. apply bits_of_value, H, Hv.
  - apply Forall_map, Forall_forall. intros. apply bits_of_length.
Qed.

Lemma bn_decompose_awp md b ys : is_bn md b ys ->
  Forall (fun v => v < 2 ^ Z.of_nat (limb_width (bparams b))) ys ->
  (limb_width (bparams b) <= NUM_BITS)%nat ->
  awp md rho (bn_decompose b)
    (flat_map (fun y => map Z.b2z (bits_of (limb_width (bparams b)) y)) ys)
    (fun bv => wire_allocs rho bv (flat_map (bits_of (limb_width (bparams b))) ys) /\
       (md = Honest -> flat_map (bits_of (limb_width (bparams b))) ys <> [] ->
          bv_vals bv = Some (flat_map (bits_of (limb_width (bparams b))) ys))).
Proof.
  intros (Hev & Hlv & Hn & Hc & Hh) HR HW. unfold bn_decompose. apply awp_bind_all.
  rewrite limb_nums_seq, mapM_map. cbn [fst snd]. rewrite (ev_length _ _ _ Hev).
  rewrite <- (flat_map_seq_nth (fun y => map Z.b2z (bits_of (limb_width (bparams b)) y)) ys 0).
  apply (awp_mapM _ _ _ _ (fun i bv => wire_allocs rho bv (bits_of (limb_width (bparams b)) (nth i ys 0)) /\
     (md = Honest -> bv_vals bv = Some (bits_of (limb_width (bparams b)) (nth i ys 0))))).
  { intros i Hi. apply in_seq in Hi.
    assert (Hin : In (nth i ys 0) ys) by (apply nth_In; lia).
    rewrite Forall_forall in HR, Hc. specialize (HR _ Hin). specialize (Hc _ Hin).
    apply awp_bind_nil. eapply awp_lift.
    { apply limb_num_ok; auto. rewrite (ev_length _ _ _ Hev). lia. }
    astep. unfold bits_of. rewrite map_map. apply num_decompose_awp; auto; cbn [n_lc n_val].
    - now apply ev_nth.
    - destruct Hc; lia.
    - intros x Hx. unfold lv_ok in Hlv. destruct (limb_values b) as [vs|]; [|discriminate].
      cbn [option_map] in Hx. injection Hx as <-. destruct Hlv as [HL Hcv].
      rewrite Forall_forall in Hcv. apply Hcv, nth_In.
      rewrite HL, (ev_length _ _ _ Hev). lia.
    - intros Hm. destruct (Hh Hm) as [-> _]. reflexivity. }
  intros xs Hxs. astep. unfold wire_allocs. cbn [bv_bits bv_allocs bv_vals].
  rewrite <- (flat_map_seq_nth (bits_of (limb_width (bparams b))) ys 0).
  split; [split|].
  - clear -Hxs. induction Hxs as [|i x l xs [[H1 _] _] _ IH]; auto. cbn [flat_map].
    now rewrite map_app, H1, IH.
  - clear -Hxs. induction Hxs as [|i x l xs [[_ H1] _] _ IH]; cbn [flat_map]; [constructor|].
    now apply Forall2_app.
  - intros Hm Hne.
    assert (Hv : flat_map (fun bv => match bv_vals bv with Some vs => vs | None => [] end) xs =
       flat_map (fun i => bits_of (limb_width (bparams b)) (nth i ys 0)) (seq 0 (List.length ys))).
    { clear -Hxs Hm. induction Hxs as [|i x l xs [_ H1] _ IH]; auto. cbn [flat_map].
      now rewrite (H1 Hm), IH. }
    rewrite Hv. destruct (flat_map _ _); [congruence|reflexivity].
Qed.

(** ** from_num *)
Lemma from_num_swp md n w k : swp md rho (from_num n w k) (fun b =>
  bparams b = params_new w k /\ List.length (limbs b) = k /\
  exists bss, Forall2 (fun l bs => List.length bs = w /\ eqp (lc_eval rho l) (bits_value bs)) (limbs b) bss /\
     eqp (lc_eval rho (n_lc n)) (bits_value (List.concat bss))).
Proof.
  unfold from_num. do 2 sstep. apply alloc_from_nat_swp. intros b Hp HL.
  do 2 sstep. eapply swp_mono; [apply bn_decompose_swp|]. intros bv (bss & H1 & [H2 H3]).
  do 2 sstep. eapply swp_mono; [eapply num_is_equal_swp; eauto; rewrite <- H2; exact H3|].
  intros u He. sstep. split; auto. split; auto. exists bss. rewrite Hp in H1. auto.
Qed.

Lemma from_num_awp md n w k ys : List.length ys = k ->
  Forall (fun v => 0 <= v < 2 ^ Z.of_nat w) ys -> (w < NUM_BITS)%nat ->
  eqp (lc_eval rho (n_lc n)) (value_of (2 ^ Z.of_nat w) ys) ->
  (md = Honest -> (1 <= k)%nat /\ exists v, n_val n = Some v /\ canon v /\
     v = value_of (2 ^ Z.of_nat w) ys) ->
  awp md rho (from_num n w k) (ys ++ flat_map (fun y => map Z.b2z (bits_of w y)) ys)
    (fun b => is_bn md b ys /\ bparams b = params_new w k).
Proof.
  intros HL HR Hw He Hh. unfold from_num. apply awp_bind. astep.
  assert (HC : Forall canon ys) by (eapply range_canon; eauto).
  apply alloc_from_nat_awp; auto.
  { intros Hm. destruct (Hh Hm) as (Hk & v & Hv & Hcv & Hvv). split; auto. split; auto.
    exists v. rewrite Hv. cbn [grab rmap rbind]. rewrite f_to_nat_canon by auto. split; auto.
    pose proof (value_of_bound _ ys (pow2_pos w) HR) as B. rewrite <- pow2_mul, HL in B.
    split; [lia|]. apply (value_of_inj (2 ^ Z.of_nat w)); auto using pow2_pos.
    - now rewrite map_length, seq_length.
    - apply digits_range.
    - rewrite digits_value, Z.mod_small; lia. }
  intros b Hb Hp. apply awp_bind_all. astep.
  eapply awp_mono.
  { pose proof (bn_decompose_awp md b ys Hb) as D. rewrite Hp in D. apply D.
    - eapply Forall_impl; [|exact HR]. cbn. intros; lia.
    - cbn. lia. }
  cbv beta. intros bv [[H1 H2] _]. apply awp_bind_nil. astep.
  eapply awp_mono.
  { eapply num_is_equal_awp; eauto.
    - rewrite <- H1. exact H2.
    - rewrite bits_value_of_limbs; auto. }
  intros u _. astep. auto.
Qed.

End Rho.
End BignatAlloc.
