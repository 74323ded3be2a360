(** Naming discipline of every gadget. *)
From Coq Require Import ZArith Bool Lia String List.
From Verif.Model Require Import Base CS TestCS Bellpepper Util Poly Bignat Gadget Ints Median Difficulty HeaderStep.
From Verif.Spec Require Import SpecNames.
From Verif.Proofs Require Import NamesP.
Import ListNotations.
Local Open Scope string_scope.
Local Open Scope Z_scope.
Local Open Scope list_scope.

Definition tidy {A} (m : prog A) : Prop := exists l, named m l.

Lemma tidy_of : forall A (m : prog A) l, named m l -> tidy m.
Proof. intros A m l H. exists l. exact H. Qed.
Lemma tidy_well_named : forall A (m : prog A), tidy m -> well_named m.
Proof. intros A m [l H]. eapply named_well_named; eauto. Qed.
Lemma named_ns' : forall A nm (m : prog A), tidy m -> slashless nm = true -> named (ns nm m) [pname nm].
Proof. intros A nm m [l H]. apply named_ns with (l := l). exact H. Qed.
Lemma named_if : forall A (b : bool) (m1 m2 : prog A) l1 l2, named m1 l1 -> named m2 l2 ->
  named (if b then m1 else m2) (l1 ++ l2).
Proof.
  intros A b m1 m2 l1 l2 H1 H2. destruct b; (eapply named_incl; [eassumption|]); intros x Hx; apply in_or_app; auto.
Qed.

Lemma map_id_nat : forall l : list nat, map (fun i => i) l = l.
Proof. apply map_id. Qed.
Lemma nodup_seq : forall a n, NoDup (map (fun i : nat => i) (seq a n)).
Proof. intros. rewrite map_id_nat. apply seq_NoDup. Qed.
Lemma nodup_combine : forall A (l : list A) a n, NoDup (map fst (combine (seq a n) l)).
Proof.
  intros A l. induction l as [|x l IH]; intros a n; [rewrite combine_nil; constructor|].
  destruct n as [|n]; cbn [seq combine map]; constructor; [|apply IH].
  intro H. apply in_map_iff in H as ((i & y) & E & H). cbn in E. subst i.
  apply in_combine_l in H. apply in_seq in H. lia.
Qed.

Ltac incl_tac := let x := fresh in let H := fresh in
  intros x H; cbn [In app map at_i at_any fst snd pname] in *; tauto.

Create HintDb nm.
(** One step: the list of patterns is found on the way. *)
Ltac nm1 := lazymatch goal with
  | |- named (bind _ _) _ => eapply named_bind; [nm1|let a := fresh in intro a; nm1|try reflexivity]
  | |- named (let (_, _) := ?p in _) _ => destruct p; nm1
  | |- named (Ret _) _ => apply named_ret
  | |- named (Fail _) _ => apply named_fail
  | |- named Crash _ => apply named_crash
  | |- named (lift _) _ => apply named_lift
  | |- named (unwrap_prog _) _ => apply named_unwrap; nm1
  | |- named (ns _ _) _ => apply named_ns'; [solve [eauto 2 with nm]|reflexivity]
  | |- named (alloc _ _) _ => apply named_alloc; reflexivity
  | |- named (alloc_input _ _) _ => apply named_alloc_input; reflexivity
  | |- named (enforce _ _ _ _) _ => apply named_enforce; reflexivity
  | |- named (Enforce _ _ (Ret tt)) _ => apply named_Enforce; reflexivity
  | |- named (if _ then _ else _) _ => eapply named_if; nm1
  | _ => solve [eauto 2 with nm]
  end.
Ltac nm := first [apply tidy_of with (l := [])| idtac]; nm1.
Ltac td := eapply tidy_of; nm1.
(** Body of a loop with templates. *)
Ltac body := eapply named_incl; [nm1|incl_tac].

Section Names.
Context {E : Env}.

(** ** bellpepper *)
Lemma n_an_alloc : forall w, tidy (an_alloc w).
Proof. intros. unfold an_alloc. td. Qed.
Lemma n_an_add : forall a b, tidy (an_add a b).
Proof. intros. unfold an_add. td. Qed.
Lemma n_ab_alloc : forall w, tidy (ab_alloc w).
Proof. intros. unfold ab_alloc. td. Qed.
Lemma n_ab_and : forall a b, tidy (ab_and a b).
Proof. intros. unfold ab_and. td. Qed.
Lemma n_bool_and : forall a b, tidy (bool_and a b).
Proof. intros [a|a|[|]] [b|b|[|]]; unfold bool_and, ab_and, ab_and_not, ab_nor; td. Qed.
Hint Resolve n_an_alloc n_an_add n_ab_alloc n_bool_and : nm.
Lemma n_bool_or : forall a b, tidy (bool_or a b).
Proof. intros. unfold bool_or. td. Qed.
Lemma n_bool_enforce_equal : forall a b, tidy (bool_enforce_equal a b).
Proof. intros [a|a|[|]] [b|b|[|]]; unfold bool_enforce_equal; cbn [Bool.eqb]; td. Qed.
Lemma n_reverse : forall a b c, tidy (an_conditionally_reverse a b c).
Proof. intros. unfold an_conditionally_reverse. td. Qed.
Lemma n_u64 : forall v, tidy (u64_into_boolean_vec_le v).
Proof.
  intros. unfold u64_into_boolean_vec_le. eapply tidy_of.
  apply (named_mapM _ _ _ (fun i => i) [("bit ", "")]); [|reflexivity|apply nodup_seq].
  intros i _. body.
Qed.
Lemma n_sha : forall ins, tidy (sha256_gadget ins).
Proof.
  intros. unfold sha256_gadget. destruct (negb _); [td|]. eapply tidy_of.
  eapply named_bind; [apply (named_mapM _ _ _ (fun i => i) [("sha256 out ", "")]); [|reflexivity|apply nodup_seq]; intros i _; body| |].
  - intro outs. eapply uses_weaken with (P := fun x => pats [PL "sha256"] x \/ pats [] x).
    + match goal with |- uses (Enforce ?n ?c (Ret ?r)) _ =>
        apply (uses_bind _ _ (Enforce n c (Ret tt)) (fun _ => Ret r)) end.
      * apply named_Enforce. reflexivity.
      * intros _. apply uses_ret.
      * intros x _ (p & [] & _).
    + intros x [H|(p & [] & _)]. exact H.
  - reflexivity.
Qed.
Hint Resolve n_bool_or n_bool_enforce_equal n_reverse n_u64 n_sha : nm.

(** ** src/util *)
Lemma n_bit_alloc : forall w, tidy (bit_alloc w).
Proof. intros. unfold bit_alloc. td. Qed.
Lemma n_num_alloc : forall w, tidy (num_alloc w).
Proof. intros. unfold num_alloc. td. Qed.
Hint Resolve n_bit_alloc n_num_alloc : nm.
Lemma n_constrain : forall b v, tidy (bit_constrain_value b v).
Proof. intros b [|]; unfold bit_constrain_value; td. Qed.
Lemma n_fits : forall n k, tidy (fits_in_bits n k).
Proof.
  intros. unfold fits_in_bits. eapply tidy_of.
  eapply named_bind; [apply (named_mapM _ _ _ (fun i => i) [("bit ", "")]); [|reflexivity|apply nodup_seq]; intros i _; body| |].
  - intro bits. eapply named_bind.
    + apply (named_iterM _ _ fst [("", " is bit")]); [|reflexivity|apply nodup_combine]. intros p _. body.
    + intros _. nm1.
    + reflexivity.
  - reflexivity.
Qed.
Lemma n_num_is_equal : forall n o, tidy (num_is_equal n o).
Proof. intros. unfold num_is_equal. td. Qed.
Lemma n_num_decompose : forall n k, tidy (num_decompose n k).
Proof.
  intros. unfold num_decompose. eapply tidy_of. eapply named_bind; [nm1| |].
  - intro values. eapply named_bind; [apply (named_mapM _ _ _ (fun i => i) [("bit", "")]); [|reflexivity|apply nodup_seq]; intros i _; body| |].
    + intro. nm1.
    + reflexivity.
  - reflexivity.
Qed.
Lemma n_sapling : forall n, tidy (as_sapling_allocated_num n).
Proof. intros. unfold as_sapling_allocated_num. td. Qed.
Hint Resolve n_constrain n_fits n_num_is_equal n_num_decompose n_sapling : nm.

(** ** src/mp/poly.rs *)
Lemma n_product : forall a b, tidy (alloc_product a b).
Proof.
  intros. unfold alloc_product. eapply tidy_of. eapply named_bind; [nm1| |shelve]. intro n.
  eapply named_bind; [nm1| |shelve]. intro values.
  eapply named_bind; [apply (named_mapM _ _ _ (fun i => i) [("prod ", "")]); [|reflexivity|apply nodup_seq]; intros i _; body| |shelve].
  intro cs. eapply named_bind; [apply (named_iterM _ _ (fun i => i) [("pointwise product @ ", "")]); [|reflexivity|apply nodup_seq]; intros i _; body| |shelve].
  intros _. nm1.
Unshelve. all: reflexivity.
Qed.
Hint Resolve n_product : nm.

(** ** src/mp/bignat.rs *)
Lemma n_alloc_from_limbs : forall f mw w n, tidy (alloc_from_limbs f mw w n).
Proof.
  intros. unfold alloc_from_limbs. eapply tidy_of.
  eapply named_bind; [apply (named_mapM _ _ _ (fun i => i) [("limb ", "")]); [|reflexivity|apply nodup_seq]; intros i _; body| |shelve].
  intro xs. destruct (match captured xs, f with [], _ => (None, None) | _, Ok vs => (Some (limbs_to_nat vs w), Some vs) | _, _ => (None, None) end). nm1.
Unshelve. all: reflexivity.
Qed.
Lemma n_alloc_from_nat : forall f w n, tidy (alloc_from_nat f w n).
Proof.
  intros. unfold alloc_from_nat. eapply tidy_of.
  eapply named_bind; [apply (named_mapM _ _ _ (fun i => i) [("limb ", "")]); [|reflexivity|apply nodup_seq]; intros i _; body| |shelve].
  intro xs. match goal with |- named (let (_, _) := ?p in _) _ => destruct p end. nm1.
Unshelve. all: reflexivity.
Qed.
Lemma n_inputize : forall b, tidy (bn_inputize b).
Proof.
  intros. unfold bn_inputize. eapply tidy_of.
  apply (named_iterM _ _ fst [("limb ", "")]); [|reflexivity|apply nodup_combine]. intros p _.
  eapply named_incl; [apply named_ns'; [td|reflexivity]|incl_tac].
Qed.
Hint Resolve n_alloc_from_limbs n_alloc_from_nat n_inputize : nm.

(** The two loops of [equal] use the same text with different numbers. *)
Lemma n_equal_ge : forall a b, tidy (equal_ge a b).
Proof.
  intros. unfold equal_ge. set (n := List.length (limbs b)).
  set (L := [PN "equal " (fun i => (i < n)%nat) ""; PN "equal " (fun i => (n <= i)%nat) ""]).
  exists L. apply (named_bind _ _ _ _ [] L); [nm1| |reflexivity]. intros _.
  eapply uses_weaken.
  - eapply uses_bind.
    + apply (named_iterM_in _ _ (fun i => i) [("equal ", "")]); [|reflexivity|apply nodup_seq]. intros i _. body.
    + intros _. apply (named_iterM_in _ _ (fun i => i) [("equal ", "")]); [|reflexivity|apply nodup_seq]. intros i _. body.
    + intros x (p & Hp & M) (q & Hq & M'). destruct Hp as [<-|[]]. destruct Hq as [<-|[]].
      destruct M as (i & Hi & ->). destruct M' as (j & Hj & H).
      rewrite map_id_nat in Hi, Hj. apply in_seq in Hi. apply in_seq in Hj.
      apply (dis_t_ok ("equal ", "") ("equal ", "")) in H; [lia|reflexivity].
  - intros x [(p & Hp & M)|(p & Hp & M)]; destruct Hp as [<-|[]]; destruct M as (i & Hi & ->);
      rewrite map_id_nat in Hi; apply in_seq in Hi.
    + eexists. split; [left; reflexivity|]. exists i. split; [lia|reflexivity].
    + eexists. split; [right; left; reflexivity|]. exists i. split; [lia|reflexivity].
Qed.
Lemma n_equal : forall a b, tidy (equal a b).
Proof. intros. unfold equal. destruct (_ <? _)%nat; apply n_equal_ge. Qed.
Lemma n_equals : forall a b, tidy (equals a b).
Proof. intros. unfold equals. td. Qed.
Hint Resolve n_equal n_equals : nm.
Lemma n_is_equal : forall a b, tidy (is_equal a b).
Proof.
  intros. unfold is_equal. destruct (negb _); [td|]. eapply tidy_of. eapply named_bind; [nm1| |shelve]. intros _.
  apply (named_foldM _ _ _ (fun i => i) [("self ", ""); ("equal self ", ""); ("other ", ""); ("equal other ", ""); ("eq ", ""); ("and ", "")]);
    [|reflexivity|apply nodup_seq]. intros i s _. body.
Unshelve. all: reflexivity.
Qed.
Lemma n_well_formed : forall b, tidy (assert_well_formed b).
Proof.
  intros. unfold assert_well_formed. eapply tidy_of.
  apply (named_iterM _ _ fst [("", "")]); [|reflexivity|apply nodup_combine]. intros p _. body.
Qed.
Lemma n_decompose : forall b, tidy (bn_decompose b).
Proof.
  intros. unfold bn_decompose. eapply tidy_of.
  eapply named_bind; [apply (named_mapM _ _ _ fst [("subdecmop ", "")]); [|reflexivity|apply nodup_combine]; intros p _; body| |shelve].
  intro. nm1.
Unshelve. all: reflexivity.
Qed.
Hint Resolve n_is_equal n_well_formed n_decompose : nm.
Lemma n_from_num : forall n w k, tidy (from_num n w k).
Proof. intros. unfold from_num. td. Qed.
Lemma n_full_bits : forall b, tidy (enforce_full_bits b).
Proof. intros. unfold enforce_full_bits. td. Qed.
Lemma n_min_bits : forall b k, tidy (enforce_min_bits b k).
Proof. intros. unfold enforce_min_bits. td. Qed.
Lemma n_carried : forall a b, tidy (equal_when_carried a b).
Proof.
  intros. unfold equal_when_carried. eapply tidy_of. eapply named_bind; [nm1| |shelve]. intro w.
  eapply named_bind; [apply (named_foldM _ _ _ (fun i => i)
    [("carry value ", ""); ("carry ", ""); ("carry ", " decomp"); ("carry ", " is out")]); [|reflexivity|apply nodup_seq]| |].
  - intros i s _. unfold carry_step. destruct s as [extra carry_in]. body.
  - intros _. eapply named_bind; [apply (named_iterM _ _ (fun i => i) [("zero self ", "")]); [|reflexivity|apply nodup_seq]; intros i _; body| |].
    + intros _. apply (named_iterM _ _ (fun i => i) [("zero other ", "")]); [|reflexivity|apply nodup_seq]. intros i _. body.
    + reflexivity.
  - reflexivity.
Unshelve. all: reflexivity.
Qed.
Hint Resolve n_from_num n_full_bits n_min_bits n_carried : nm.
Lemma n_regroup : forall a b, tidy (equal_when_carried_regroup a b).
Proof. intros. unfold equal_when_carried_regroup. td. Qed.
Hint Resolve n_regroup : nm.
Lemma n_verify_mult : forall a b p, tidy (verify_mult a b p).
Proof. intros. unfold verify_mult. td. Qed.
Hint Resolve n_verify_mult : nm.
Lemma n_divides : forall a b, tidy (divides a b).
Proof. intros. unfold divides. td. Qed.
Lemma n_sub : forall a b, tidy (sub a b).
Proof. intros. unfold sub. td. Qed.
Lemma n_mult : forall a b, tidy (mult a b).
Proof. intros. unfold mult. td. Qed.
Lemma n_assert_product_mod : forall a b m r, tidy (assert_product_mod a b m r).
Proof. intros. unfold assert_product_mod. td. Qed.
Lemma n_mult_mod : forall a b m, tidy (mult_mod a b m).
Proof. intros. unfold mult_mod. td. Qed.
Lemma n_red_mod : forall a m, tidy (red_mod a m).
Proof. intros. unfold red_mod. td. Qed.
Hint Resolve n_divides n_sub n_mult n_assert_product_mod n_mult_mod n_red_mod : nm.

(** ** src/util/gadget.rs *)
Lemma n_gadget_alloc : forall v p, tidy (gadget_alloc v p).
Proof. intros. apply n_alloc_from_nat. Qed.
Hint Resolve n_gadget_alloc : nm.
Lemma n_gadget_inputize : forall b, tidy (gadget_inputize b).
Proof.
  intros. unfold gadget_inputize. eapply tidy_of.
  apply (named_iterM _ _ fst [("", "")]); [|reflexivity|apply nodup_combine]. intros p _.
  eapply named_incl; [apply named_ns'; [td|reflexivity]|incl_tac].
Qed.
Lemma n_as_nums : forall b, tidy (as_nums b).
Proof.
  intros. unfold as_nums. eapply tidy_of.
  apply (named_mapM _ _ _ fst [("wire ", ""); ("wire eq ", "")]); [|reflexivity|apply nodup_combine]. intros p _. body.
Qed.
Lemma named_mux_wires : forall s w0 w1 wo, named (mux_wires s w0 w1 wo) [PN "" anyi ""].
Proof.
  intros. unfold mux_wires.
  apply (named_iterM _ _ fst [("", "")]); [|reflexivity|apply nodup_combine]. intros (i & (l0 & l1) & lo) _. cbn [fst]. body.
Qed.
Lemma n_mux_default : forall s a b, tidy (mux_default s a b).
Proof.
  intros. unfold mux_default. destruct (negb _); [td|].
  exists [PL "out"; PN "" anyi ""].
  apply (named_bind _ _ _ _ [PL "out"] [PN "" anyi ""]); [nm1| |reflexivity].
  intro out. destruct (negb _); [eapply named_incl; [nm1|incl_tac]|].
  apply (named_bind _ _ _ _ [PN "" anyi ""] []); [|intros _; nm1|reflexivity].
  apply named_mux_wires.
Qed.
Lemma n_mux : forall s a b, tidy (mux s a b).
Proof.
  intros. unfold mux. eapply tidy_of. eapply named_bind; [nm1| |shelve]. intro i0.
  eapply named_bind; [nm1| |shelve]. intro i1.
  eapply named_if; [nm1|]. eapply named_bind; [nm1| |].
  - intro out. apply (named_bind _ _ _ _ [PN "" anyi ""] []); [|intros _; nm1|reflexivity].
    apply named_mux_wires.
  - reflexivity.
Unshelve. all: reflexivity.
Qed.
Hint Resolve n_mux : nm.
Lemma n_mux_tree : forall bits inputs, tidy (mux_tree bits inputs).
Proof.
  induction bits as [|b bits IH]; intros inputs; cbn [mux_tree].
  - destruct inputs as [|x [|y l]]; td.
  - destruct (negb _); td.
Qed.
Lemma n_switch : forall s a b, tidy (switch s a b).
Proof. intros. unfold switch. td. Qed.
Hint Resolve n_switch : nm.
Lemma n_assert_equal : forall a b, tidy (assert_equal a b).
Proof.
  intros. unfold assert_equal. destruct (negb _); [td|]. eapply tidy_of.
  apply (named_iterM _ _ fst [("", "")]); [|reflexivity|apply nodup_combine]. intros p _. body.
Qed.
Lemma n_bn_min : forall a b, tidy (bn_min a b).
Proof. intros. unfold bn_min. td. Qed.

(** ** src/btc_validation *)
Lemma n_less_than : forall a b n, tidy (less_than a b n).
Proof. intros. unfold less_than. td. Qed.
Lemma n_leq : forall a b n, tidy (leq a b n).
Proof. intros. unfold leq. td. Qed.
Hint Resolve n_less_than n_leq : nm.
Lemma n_verify_median : forall ts m, tidy (verify_median_timestamp ts m).
Proof.
  intros. unfold verify_median_timestamp. eapply tidy_of. eapply named_bind; [nm1| |shelve]. intro fe.
  eapply named_bind; [apply (named_mapM _ _ _ fst [("timestamp ", "")]); [|reflexivity|apply nodup_combine]; intros p _; body| |].
  - intro fts. eapply named_bind; [nm1| |].
    + intro sd. eapply named_bind; [apply (named_foldM _ _ _ fst
        [("check equal for time ", ""); ("res_lt ", ""); ("signum ", ""); ("equality ", ""); ("less than ", "");
         ("(1 - res_eq) * (1 - 2 * res_lt) == delta_sign ", ""); ("sign_diff increment ", "")]); [|reflexivity|apply nodup_combine]| |].
      * intros (i & t) (o & d) _. unfold median_step. cbn [fst]. body.
      * intros (o & d). nm1.
      * reflexivity.
    + reflexivity.
  - reflexivity.
Unshelve. all: reflexivity.
Qed.
Hint Resolve n_verify_median : nm.

Lemma named_num_u : forall s w, no_slash s = true -> named (num_u s w) [PL s].
Proof. intros s w H. apply named_unwrap. apply (named_ns' _ (Nm s)); [eauto with nm|exact H]. Qed.
Lemma named_bignat_u : forall s n w k, no_slash s = true -> named (bignat_u s n w k) [PL s].
Proof. intros s n w k H. apply named_unwrap. apply (named_ns' _ (Nm s)); [eauto with nm|exact H]. Qed.
Lemma named_an_u : forall s w, no_slash s = true -> named (an_u s w) [PL s].
Proof. intros s w H. apply named_unwrap. apply (named_ns' _ (Nm s)); [eauto with nm|exact H]. Qed.
Lemma named_lt_u : forall s a b n, no_slash s = true -> named (lt_u s a b n) [PL s].
Proof.
  intros s a b n H. unfold lt_u. apply (named_bind _ _ _ _ [PL s] []).
  - apply named_unwrap. apply (named_ns' _ (Nm s)); [eauto with nm|exact H].
  - intro r. nm1.
  - unfold disjoint_pats. cbn. reflexivity.
Qed.
Lemma named_assert : forall b, named (assert b) [].
Proof. intros [|]; [apply named_ret|apply named_crash]. Qed.
Lemma named_assert_true : forall r, named (assert_true r) [].
Proof.
  intros. unfold assert_true. apply (named_bind _ _ _ _ [] []); [nm1|intro; apply named_assert|reflexivity].
Qed.
Hint Extern 1 (named (num_u _ _) _) => apply named_num_u; reflexivity : nm.
Hint Extern 1 (named (bignat_u _ _ _ _) _) => apply named_bignat_u; reflexivity : nm.
Hint Extern 1 (named (an_u _ _) _) => apply named_an_u; reflexivity : nm.
Hint Extern 1 (named (lt_u _ _ _ _) _) => apply named_lt_u; reflexivity : nm.
Hint Extern 1 (named (assert _) _) => apply named_assert : nm.
Hint Extern 1 (named (assert_true _) _) => apply named_assert_true : nm.

Lemma n_verify_difficulty : forall a b c d e, tidy (verify_difficulty_update a b c d e).
Proof. intros. unfold verify_difficulty_update. td. Qed.
Lemma n_calculate : forall p s, tidy (calculate_difficulty_update p s).
Proof. intros. unfold calculate_difficulty_update. td. Qed.
Lemma n_verify_hash : forall a b c d, tidy (verify_current_hash a b c d).
Proof. intros. unfold verify_current_hash. td. Qed.
Hint Resolve n_calculate : nm.

Lemma named_words : forall pre ws, no_slash pre = true -> dis_num pre "" pre "" || nondigit_start "" = true ->
  named (words_to_bits pre ws) [PN pre anyi ""].
Proof.
  intros pre ws H _. unfold words_to_bits. apply (named_bind _ _ _ _ [PN pre anyi ""] []); [|intro; nm1|reflexivity].
  apply (named_mapM _ _ _ fst [(pre, "")]); [| |apply nodup_combine].
  - intros p _. cbn [at_i map fst snd]. apply (named_bind _ _ _ _ [PN pre (eq (fst p)) ""] []).
    + apply named_unwrap. apply (named_ns' _ (Nmi pre (fst p) "")); [eauto with nm|]. cbn. rewrite H. reflexivity.
    + intro. nm1.
    + reflexivity.
  - cbn. unfold dis_t. cbn. rewrite String.eqb_refl. rewrite orb_true_r. reflexivity.
Qed.
Hint Extern 1 (named (words_to_bits _ _) _) => apply named_words; reflexivity : nm.

Lemma named_ignore_eq : forall nm a b, slashless nm = true -> named (ignore_err (ns nm (bool_enforce_equal a b))) [pname nm].
Proof.
  intros nm a b H t r Ht.
  assert (F : no_slash (render nm) = true /\ ~ In (render nm) t).
  { split; [apply slashless_ok; exact H|]. intro C. apply (Ht _ C). apply pname_ok. reflexivity. }
  assert (Q : exists n, (render nm :: t) :: r = (n ++ t) :: r /\ forall x, In x n -> pats [pname nm] x).
  { exists [render nm]. split; [reflexivity|]. intros x [<-|[]]. apply pname_ok. reflexivity. }
  destruct a as [a|a|[|]], b as [b|b|[|]]; unfold ignore_err, ns, bool_enforce_equal, enforce; cbn [Bool.eqb];
    cbn [bind ignore_err_at nok fresh1 use1 Nat.iter pred nat_rect]; (split; [exact F|]);
    try exact Q; (split; [split; [reflexivity|intros []]|exact Q]).
Qed.
Lemma n_check_prev : forall p h, tidy (check_prev_hash p h).
Proof.
  intros. unfold check_prev_hash. eapply tidy_of.
  eapply named_bind; [nm1| |]; [intro hv|]. eapply named_bind; [nm1| |]; [intro pv|].
  eapply named_bind; [nm1| |]; [intro o1|]. eapply named_bind; [nm1| |]; [intro o2|].
  apply (named_iterM _ _ fst [("bit ", "")]); [|reflexivity|apply nodup_combine].
  - intros q _. apply named_ignore_eq. reflexivity.
  - reflexivity.
  - reflexivity.
  - reflexivity.
  - reflexivity.
Qed.

(** ** src/btc_validation/header_step.rs *)
Definition l_prev : list pat := [PN "dummy " anyi ""; PL "last block hash";
  PL "Is prev. hash from current block equal to the last block hash?"].
Lemma named_prev : forall h z, named (stage_prev_hash h z) l_prev.
Proof. intros. unfold stage_prev_hash. eapply named_incl; [nm1|unfold l_prev; incl_tac]. Qed.
Definition l_pow : list pat := [PL "Block target"; PN "dummy2 " anyi ""; PL "SHA 256"; PL "SHA 256d";
  PL "current block hash"; PL "Is PoW consensus achieved?"].
Lemma named_pow : forall h, named (stage_pow h) l_pow.
Proof. intros. unfold stage_pow. eapply named_incl; [nm1|unfold l_pow; incl_tac]. Qed.
Definition l_time : list pat := [PL "median verify"; PL "median"; PL "current timestamp"; PL "valid timestamp"].
Lemma named_time : forall h z, named (stage_time h z) l_time.
Proof. intros. unfold stage_time. eapply named_incl; [nm1|unfold l_time; incl_tac]. Qed.
Definition l_work : list pat := [PL "maximum target"; PL "work or difficulty"; PL "max_target = target * block_work"].
Lemma named_work : forall t, named (stage_work t) l_work.
Proof. intros. unfold stage_work. eapply named_incl; [nm1|unfold l_work; incl_tac]. Qed.
Definition l_update : list pat := [PL "0 = (target - z_i[12]) * z_i[14]"; PL "target calculated"; PL "target updated";
  PL "delta_inv"; PL "t"; PL "t = z_i[14] * delta_inv"; PL "z_i[14] * (t - 1) == 0"; PL "(curr_target - calc_target) * (t - 1) == 0"].
Lemma named_update : forall b t z, named (stage_target_update b t z) l_update.
Proof. intros. unfold stage_target_update. eapply named_incl; [nm1|unfold l_update; incl_tac]. Qed.
Definition l_out : list pat := [PL "current SHA256d hash out"; PN "timestamp out " anyi "";
  PL "current timestamp out"; PL "current target out"; PL "current start time epoch out"; PL "target counter";
  PL "z_out[14] = z_i[14] + 1"; PL "total work"; PL "z_out[15] = z_i[15] + block_work"].
Lemma named_copy : forall nm i a z, slashless nm = true -> named (out_copy nm i a z) [pname nm].
Proof.
  intros nm i a z H. unfold out_copy. apply (named_bind _ _ _ _ [] [pname nm]); [nm1| |reflexivity]. intro.
  apply (named_bind _ _ _ _ [] [pname nm]); [nm1| |reflexivity]. intro.
  apply (named_bind _ _ _ _ [pname nm] []); [apply named_enforce; exact H|intro; nm1|reflexivity].
Qed.
Hint Extern 1 (named (out_copy _ _ _ _) _) => apply named_copy; reflexivity : nm.
Lemma named_loop : forall z z_out, named (foldM (fun z_out i =>
     let! zi1 := lift (idx z (i + 1)) in out_copy (Nmi "timestamp out " i "") i zi1 z_out) (seq 1 10) z_out)
  [PN "timestamp out " anyi ""].
Proof.
  intros. apply (named_foldM _ _ _ (fun i => i) [("timestamp out ", "")]); [|reflexivity|apply nodup_seq].
  intros i s _. body.
Qed.
Hint Extern 1 (named (foldM _ _ _) _) => apply named_loop : nm.
Lemma named_out : forall z_out z h t g e w, named (stage_out z_out z h t g e w) l_out.
Proof. intros. unfold stage_out. eapply named_incl; [nm1|unfold l_out; incl_tac]. Qed.

Lemma n_synthesize : forall z_out h z, tidy (synthesize_with z_out h z).
Proof.
  intros. unfold synthesize_with. eapply tidy_of.
  eapply named_bind; [apply named_prev|intros _|shelve].
  eapply named_bind; [apply named_pow|intros ((b & t) & c)|shelve].
  eapply named_bind; [apply named_time|intros ct|shelve].
  eapply named_bind; [apply named_work|intros wk|shelve].
  eapply named_bind; [apply named_update|intros ((? & ?) & e)|shelve].
  apply named_out.
Unshelve. all: reflexivity.
Qed.

End Names.
