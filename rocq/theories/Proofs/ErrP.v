(** No error leaves the validation functions. *)
From Coq Require Import ZArith Bool String List Lia.
From Verif.Model Require Import Base Sha256 CS Bellpepper Util Poly Bignat Ints Median Difficulty HeaderStep ShaGadget RealHash.
From Verif.Spec Require Import Spec SpecErr.
From Verif.Proofs Require Import Wp.
Import ListNotations.
Local Open Scope string_scope.
Local Open Scope Z_scope.
Local Open Scope list_scope.

(** ** Results without errors *)
Definition rne {A} (r : res A) : Prop := forall e, r <> Err e.
Lemma rne_ok {A} (a : A) : rne (Ok a). Proof. intros e H. discriminate H. Qed.
Lemma rne_panic {A} : rne (@Panic A). Proof. intros e H. discriminate H. Qed.
Lemma rne_unwrap {A} (o : option A) : rne (unwrap o). Proof. destruct o; intros e H; discriminate H. Qed.
Lemma rne_unwrap_res {A} (r : res A) : rne (unwrap_res r). Proof. destruct r; intros e' H; discriminate H. Qed.
Lemma rne_idx {A} (l : list A) i : rne (idx l i). Proof. apply rne_unwrap. Qed.
Lemma rne_bind {A B} (r : res A) (f : A -> res B) : rne r -> (forall a, r = Ok a -> rne (f a)) -> rne (rbind r f).
Proof. destruct r as [a|e|]; intros H1 H2; cbn [rbind]; [apply H2; reflexivity|intros e' _; exact (H1 e eq_refl)|apply rne_panic]. Qed.
Lemma rne_if {A} (b : bool) (x y : res A) : rne x -> rne y -> rne (if b then x else y).
Proof. destruct b; auto. Qed.
Lemma rne_rmapM {A B} (f : A -> res B) : (forall a, rne (f a)) -> forall l, rne (rmapM f l).
Proof. intros H. induction l; cbn [rmapM]; [apply rne_ok|]. apply rne_bind; [apply H|]. intros. apply rne_bind; [exact IHl|]. intros. apply rne_ok. Qed.

(** ** Programs without errors *)
Fixpoint nf {A} (wit : bool) (m : prog A) (Q : A -> Prop) : Prop :=
  match m with
  | Ret a => Q a
  | Fail _ => False
  | Crash => True
  | Alloc inp nm w k => if wit then rne w /\ forall x v, w = Ok v -> nf wit (k x (Some v)) Q else forall x, nf wit (k x None) Q
  | Enforce nm c k => nf wit k Q
  | Push nm k => nf wit k Q
  | Pop k => nf wit k Q
  end.
Lemma nf_mono {A} wit (m : prog A) : forall Q Q' : A -> Prop, nf wit m Q -> (forall a, Q a -> Q' a) -> nf wit m Q'.
Proof.
  induction m as [a|e| |inp nm w k IH|nm c k IH|nm k IH|k IH]; intros Q Q' H HQ; cbn [nf] in *; eauto.
  destruct wit; [destruct H as [H1 H2]; split; [exact H1|]|]; eauto.
Qed.
Lemma nf_bind {A B} wit (m : prog A) (f : A -> prog B) Q : nf wit m (fun a => nf wit (f a) Q) -> nf wit (bind m f) Q.
Proof.
  induction m as [a|e| |inp nm w k IH|nm c k IH|nm k IH|k IH]; intros H; cbn [nf bind] in *; eauto.
  destruct wit; [destruct H as [H1 H2]; split; [exact H1|]|]; eauto.
Qed.
Lemma nf_seq {A B} wit (m : prog A) (f : A -> prog B) P Q : nf wit m P -> (forall a, P a -> nf wit (f a) Q) -> nf wit (bind m f) Q.
Proof. intros H1 H2. apply nf_bind. eapply nf_mono; [exact H1|exact H2]. Qed.
Lemma nf_ns {A} wit nm (m : prog A) Q : nf wit m Q -> nf wit (ns nm m) Q.
Proof. intros H. cbn [ns nf]. apply nf_bind. eapply nf_mono; [exact H|]. intros a Ha. exact Ha. Qed.
Lemma nf_unwrap {A} wit (m : prog A) : nf wit (unwrap_prog m) (fun _ => True).
Proof.
  induction m as [a|e| |inp nm w k IH|nm c k IH|nm k IH|k IH]; cbn [nf unwrap_prog]; auto.
  destruct wit; [split; [apply rne_unwrap_res|]|]; auto.
Qed.
Lemma nf_unwrap_post {A} wit (m : prog A) : forall Q, nf wit m Q -> nf wit (unwrap_prog m) Q.
Proof.
  induction m as [a|e| |inp nm w k IH|nm c k IH|nm k IH|k IH]; intros Q H; cbn [nf unwrap_prog] in *; auto; try contradiction.
  destruct wit; [destruct H as [H1 H2]; split; [apply rne_unwrap_res|]|]; auto.
  intros x v Hw. apply IH, H2. destruct w; [exact Hw|discriminate Hw|discriminate Hw].
Qed.
Lemma nf_lift {A} wit (r : res A) (Q : A -> Prop) : rne r -> (forall a, r = Ok a -> Q a) -> nf wit (lift r) Q.
Proof. destruct r as [a|e|]; intros H1 H2; cbn [lift nf]; auto. exact (H1 e eq_refl). Qed.
Lemma nf_never {A} (m : prog A) Q : (forall wit, nf wit m (Q wit)) -> never_errs m.
Proof.
  intros H wit s e. specialize (H wit). revert H. generalize (Q wit). intros Q' H. revert s. induction m as [a|e'| |inp nm w k IH|nm c k IH|nm k IH|k IH]; intros s; cbn [nf run] in *; auto; try discriminate; try contradiction.
  destruct wit; [|apply IH, H]. destruct H as [H1 H2]. destruct w as [v|e'|]; [apply IH, H2; reflexivity| |discriminate]. destruct (H1 e' eq_refl).
Qed.
Lemma nf_mapM {A B} wit (f : A -> prog B) : (forall a, nf wit (f a) (fun _ => True)) -> forall l, nf wit (mapM f l) (fun _ => True).
Proof.
  intros H. induction l as [|a l IH]; cbn [mapM]; [exact I|].
  eapply nf_seq; [apply H|]. intros b _. eapply nf_seq; [exact IH|]. intros; exact I.
Qed.
Lemma nf_iterM {A} wit (f : A -> prog unit) : (forall a, nf wit (f a) (fun _ => True)) -> forall l, nf wit (iterM f l) (fun _ => True).
Proof. intros H. induction l as [|a l IH]; cbn [iterM]; [exact I|]. eapply nf_seq; [apply H|]. intros; exact IH. Qed.
Lemma nf_foldM {A S} wit (f : S -> A -> prog S) (P : S -> Prop) : (forall s a, P s -> nf wit (f s a) P) -> forall l s, P s -> nf wit (foldM f l s) P.
Proof. intros H. induction l as [|a l IH]; intros s Hs; cbn [foldM]; [exact Hs|]. eapply nf_seq; [apply H, Hs|]. intros; apply IH; assumption. Qed.
(** [let _ =]: an error of constraints alone is dropped. *)
Fixpoint no_alloc {A} (m : prog A) : Prop :=
  match m with Alloc _ _ _ _ => False | Enforce _ _ k | Push _ k | Pop k => no_alloc k | _ => True end.
Lemma nf_pops wit d : nf wit (Nat.iter d (fun k => Pop k) (Ret tt)) (fun _ => True).
Proof. induction d; cbn; auto. Qed.
Lemma nf_ignore {A} wit (m : prog A) : no_alloc m -> forall d, nf wit (ignore_err_at d m) (fun _ => True).
Proof.
  induction m as [a|e| |inp nm w k IH|nm c k IH|nm k IH|k IH]; intros HA d; cbn [no_alloc] in HA; cbn [ignore_err_at nf]; auto using nf_pops; contradiction.
Qed.

Section Err.
Context {E : Env}.
Lemma rne_checked w r : rne (checked w r).
Proof. unfold checked. repeat apply rne_if; auto using rne_ok, rne_panic. Qed.
Lemma rne_amount w n : rne (amount w n).
Proof. unfold amount. repeat apply rne_if; auto using rne_ok, rne_panic. Qed.
Lemma rne_shl w a n : rne (shl w a n).
Proof. unfold shl. apply rne_bind; [apply rne_amount|]. intros; apply rne_ok. Qed.
Lemma rne_shr w a n : rne (shr w a n).
Proof. unfold shr. apply rne_bind; [apply rne_amount|]. intros; apply rne_ok. Qed.
Ltac rn := repeat first [apply rne_ok | apply rne_panic | apply rne_unwrap | apply rne_idx | apply rne_shl | apply rne_shr | apply rne_checked | apply rne_if | (apply rne_bind; [|intros ? ?]) | progress cbv zeta].
Lemma rne_split n : rne (split_bytes n). Proof. unfold split_bytes. rn. Qed.
Lemma rne_time b : rne (time_endian b). Proof. unfold time_endian. rn. Qed.
Lemma rne_prev_word h i : rne (prev_hash_word h i). Proof. unfold prev_hash_word. rn. Qed.
Lemma rne_state_time z i : rne (state_time z i). Proof. unfold state_time. rn. Qed.
Lemma rne_median ts : rne (compute_median_timestamp ts). Proof. unfold compute_median_timestamp. rn. Qed.
Lemma rne_vec_set {A} (a : A) : forall l i, rne (vec_set i a l).
Proof. induction l as [|b l IH]; intros [|i]; cbn [vec_set]; rn. apply IH. Qed.

(** Values recorded while proving. *)
Definition hasv (wit : bool) (a : allocated_num) : Prop := wit = true -> an_val a <> None.
Definition hasb (wit : bool) (b : Boolean) : Prop := wit = true -> bool_val b <> None.
Lemma nf_an_alloc wit w : rne w -> nf wit (an_alloc w) (hasv wit).
Proof. intros H. unfold an_alloc. cbn. destruct wit; [split; [exact H|]|]; intros; intro; cbn; [discriminate|discriminate]. Qed.
Lemma nf_an_u wit nm w : nf wit (an_u nm w) (hasv wit).
Proof.
  unfold an_u, an_alloc, alloc, ns. cbn. destruct wit; [split; [apply rne_unwrap_res|]|]; intros; intro; cbn; discriminate.
Qed.
Lemma nf_u_alloc wit nm w : nf wit (unwrap_prog (ns nm (an_alloc w))) (hasv wit).
Proof. unfold an_alloc, alloc, ns. cbn. destruct wit; [split; [apply rne_unwrap_res|]|]; intros; intro; cbn; discriminate. Qed.
Lemma nf_ab_alloc wit v : (wit = true -> v <> None) -> nf wit (ab_alloc v) (fun b => ab_val b = v).
Proof. intros H. unfold ab_alloc. cbn. destruct wit; [|intros; reflexivity]. destruct v as [b|]; [|destruct (H eq_refl eq_refl)]. split; [apply rne_ok|]. intros; reflexivity. Qed.
Lemma nf_enforce wit nm a b c : nf wit (enforce nm a b c) (fun _ => True). Proof. exact I. Qed.
Ltac step := eapply nf_seq; [|intros ? ?].
Ltac enf := eapply nf_seq; [apply nf_enforce|intros _ _].
Lemma nf_equals wit a b : hasv wit a -> hasv wit b -> nf wit (equals a b) (hasb wit).
Proof.
  intros Ha Hb. unfold equals. cbv zeta.
  eapply nf_seq; [apply nf_ns, nf_ab_alloc; intros Hw; specialize (Ha Hw); specialize (Hb Hw); destruct (an_val a), (an_val b); congruence|]. intros r Hr.
  eapply nf_seq; [apply nf_ns, nf_an_alloc; rn|]. intros d _. enf.
  eapply nf_seq; [apply nf_ns, nf_an_alloc; rn|]. intros di _.
  eapply nf_seq; [apply nf_ns, nf_an_alloc; rn|]. intros t _. do 4 enf.
  cbn [nf]. intros Hw. cbn [bool_val]. rewrite Hr. specialize (Ha Hw); specialize (Hb Hw). destruct (an_val a), (an_val b); congruence.
Qed.
Lemma nf_less_than wit a b n : nf wit (less_than a b n) (hasb wit).
Proof.
  unfold less_than. eapply nf_seq; [apply nf_u_alloc|]. intros z Hz. eapply nf_seq; [apply nf_u_alloc|]. intros nb Hn.
  apply nf_ns, nf_equals; assumption.
Qed.
Lemma nf_leq wit a b n : nf wit (leq a b n) (hasb wit).
Proof.
  unfold leq. eapply nf_seq; [apply nf_u_alloc|]. intros z Hz. eapply nf_seq; [apply nf_u_alloc|]. intros nb Hn.
  apply nf_ns, nf_equals; assumption.
Qed.
Ltac u := eapply nf_seq; [apply nf_unwrap|intros ? _].
Ltac l := eapply nf_seq; [apply (nf_lift _ _ (fun _ => True)); [|intros; exact I]|intros ? _].
Lemma nf_median_step wit m s p : nf wit (median_step m s p) (fun _ => True).
Proof.
  destruct s as [n d], p as [i t]. unfold median_step. cbv zeta. do 3 u. l; [apply rne_unwrap|]. do 2 u. enf. u. exact I.
Qed.
Lemma nf_verify_median wit ts m : nf wit (verify_median_timestamp ts m) (fun _ => True).
Proof.
  unfold verify_median_timestamp. u. eapply nf_seq; [apply nf_mapM; intros; apply nf_unwrap|]. intros fs _. u.
  eapply nf_seq; [apply (nf_foldM _ _ (fun _ => True)); [intros; apply nf_median_step|exact I]|]. intros [n d] _. do 3 u. enf. eapply nf_seq; [apply nf_unwrap|]. intros [ab ?] _. do 3 u.
  apply nf_ns. eapply nf_mono; [apply nf_leq|auto].
Qed.
Lemma nf_assert wit b : nf wit (assert b) (fun _ => True). Proof. destruct b; exact I. Qed.
Lemma nf_assert_true wit b : nf wit (assert_true b) (fun _ => True).
Proof. unfold assert_true. l; [apply rne_unwrap|]. apply nf_assert. Qed.
Lemma nf_lt_u wit nm a b n : nf wit (lt_u nm a b n) (fun _ => True).
Proof. unfold lt_u. u. apply nf_lift; [apply rne_unwrap|auto]. Qed.
Lemma nf_calculate wit p t : nf wit (calculate_difficulty_update p t) (fun _ => True).
Proof.
  unfold calculate_difficulty_update. do 4 u. do 2 (eapply nf_seq; [apply nf_lt_u|intros ? _]). eapply nf_seq; [apply nf_assert|intros _ _]. do 2 u.
  eapply nf_seq; [apply nf_unwrap|]. intros [q ?] _. exact I.
Qed.
Lemma nf_verify_difficulty wit a b c d t : nf wit (verify_difficulty_update a b c d t) (fun _ => True).
Proof.
  unfold verify_difficulty_update. do 8 u. l; [apply rne_unwrap_res|]. do 2 u. l; [apply rne_unwrap_res|]. do 3 u. do 2 (eapply nf_seq; [apply nf_lt_u|intros ? _]).
  eapply nf_seq; [apply nf_assert|intros _ _]. do 2 u. eapply nf_seq; [apply nf_unwrap|]. intros [q ?] _. apply nf_unwrap.
Qed.
Lemma hasb_not wit b : hasb wit b -> hasb wit (bool_not b).
Proof. intros H Hw. specialize (H Hw). destruct b as [x|x|c]; cbn in *; try exact H; [destruct (ab_val x); cbn in *; congruence|destruct (ab_val x); cbn in *; congruence|discriminate]. Qed.
Lemma nf_and wit a b : hasb wit a -> hasb wit b -> nf wit (bool_and a b) (hasb wit).
Proof.
  intros Ha Hb. destruct wit.
  - specialize (Ha eq_refl); specialize (Hb eq_refl).
    destruct a as [a|a|[|]], b as [b|b|[|]]; cbn in *; try (intros _; exact Ha); try (intros _; exact Hb); try (intros _; discriminate);
      destruct (ab_val a); cbn in *; try congruence; destruct (ab_val b); cbn in *; try congruence; (split; [apply rne_ok|intros; intros _; cbn; discriminate]).
  - destruct a as [a|a|[|]], b as [b|b|[|]]; cbn; intros; intro; discriminate.
Qed.
Lemma nf_current_hash wit a b c d : nf wit (verify_current_hash a b c d) (fun _ => True).
Proof.
  unfold verify_current_hash. do 4 (eapply nf_seq; [apply nf_an_u|intros ? ?]).
  eapply nf_seq; [apply nf_unwrap_post, nf_ns, nf_less_than|intros r1 H1'].
  eapply nf_seq; [apply nf_unwrap_post, nf_ns, nf_equals; assumption|intros r2 H2'].
  eapply nf_seq; [apply nf_unwrap_post, nf_ns, nf_less_than|intros r3 H3'].
  eapply nf_seq; [apply nf_unwrap_post, nf_ns, nf_and; assumption|intros r4 H4'].
  apply nf_ns. unfold bool_or. eapply nf_seq; [apply nf_ns, nf_and; apply hasb_not; assumption|]. intros; exact I.
Qed.
Lemma nf_words wit pre ws : nf wit (words_to_bits pre ws) (fun _ => True).
Proof. unfold words_to_bits. eapply nf_seq; [apply nf_mapM; intros; u; exact I|]. intros; exact I. Qed.
Lemma enforce_equal_no_alloc a b : no_alloc (bool_enforce_equal a b).
Proof. destruct a as [a|a|[|]], b as [b|b|[|]]; exact I. Qed.
Lemma no_alloc_bind {A B} (m : prog A) (f : A -> prog B) : no_alloc m -> (forall a, no_alloc (f a)) -> no_alloc (bind m f).
Proof. induction m; cbn [no_alloc bind]; auto; contradiction. Qed.
Lemma nf_check_prev sha wit blk hsh : nf wit (check_prev_hash_by sha blk hsh) (fun _ => True).
Proof.
  unfold check_prev_hash_by. do 2 (eapply nf_seq; [apply nf_words|intros ? _]). do 2 u. apply nf_iterM. intros p. apply nf_ignore.
  cbn [ns no_alloc]. apply no_alloc_bind; [apply enforce_equal_no_alloc|]. intros; exact I.
Qed.
Lemma nf_stage_prev wit h z : nf wit (stage_prev_hash h z) (fun _ => True).
Proof.
  unfold stage_prev_hash. l; [apply rne_rmapM; intros; apply rne_prev_word|]. eapply nf_seq; [apply nf_words|intros ? _]. u. l; [apply rne_idx|]. u.
  eapply nf_seq; [apply nf_assert_true|intros _ _]. exact I.
Qed.
Lemma nf_stage_pow sha wit h : nf wit (stage_pow_by sha h) (fun _ => True).
Proof.
  unfold stage_pow_by. l; [apply rne_idx|]. l; [apply rne_shr|]. l; [apply rne_split|]. u. eapply nf_seq; [apply nf_words|intros ? _]. do 4 u.
  eapply nf_seq; [apply nf_assert_true|intros _ _]. exact I.
Qed.
Lemma nf_stage_time wit h z : nf wit (stage_time h z) (fun _ => True).
Proof.
  unfold stage_time. l; [apply rne_rmapM; intros; apply rne_state_time|]. eapply nf_seq; [apply (nf_lift _ _ (fun _ => True)); [apply rne_median|auto]|]. intros [m ts] _. u.
  eapply nf_seq; [apply nf_assert_true|intros _ _]. l; [apply rne_idx|]. l; [apply rne_split|]. l; [apply rne_time|]. do 3 u.
  eapply nf_seq; [apply nf_assert_true|intros _ _]. exact I.
Qed.
Lemma nf_stage_work wit t : nf wit (stage_work t) (fun _ => True).
Proof. unfold stage_work. do 2 u. enf. exact I. Qed.
Lemma nf_stage_target wit b t z : nf wit (stage_target_update b t z) (fun _ => True).
Proof.
  unfold stage_target_update. do 2 (l; [apply rne_idx|]). enf. l; [apply rne_idx|]. u. l; [apply rne_unwrap|]. cbv zeta. u.
  do 2 (eapply nf_seq; [apply nf_ns, nf_an_alloc; rn|intros ? _]). do 3 enf. exact I.
Qed.
Lemma nf_copy wit nm i a o : nf wit (out_copy nm i a o) (fun _ => True).
Proof. unfold out_copy. l; [apply rne_vec_set|]. l; [apply rne_idx|]. enf. exact I. Qed.
Lemma nf_stage_out wit o z a b c d e : nf wit (stage_out o z a b c d e) (fun _ => True).
Proof.
  unfold stage_out. eapply nf_seq; [apply nf_copy|intros ? _].
  eapply nf_seq; [apply (nf_foldM _ _ (fun _ => True)); [intros; l; [apply rne_idx|]; apply nf_copy|exact I]|intros ? _].
  do 3 (eapply nf_seq; [apply nf_copy|intros ? _]). l; [apply rne_idx|]. u. l; [apply rne_vec_set|]. enf. l; [apply rne_idx|]. u. l; [apply rne_vec_set|]. enf. exact I.
Qed.
Lemma nf_synthesize sha wit o h z : nf wit (synthesize_by sha o h z) (fun _ => True).
Proof.
  unfold synthesize_by. eapply nf_seq; [apply nf_stage_prev|intros _ _]. eapply nf_seq; [apply nf_stage_pow|intros [[b t] c] _].
  eapply nf_seq; [apply nf_stage_time|intros ? _]. eapply nf_seq; [apply nf_stage_work|intros ? _].
  eapply nf_seq; [apply nf_stage_target|intros [[? ?] ?] _]. apply nf_stage_out.
Qed.
End Err.
