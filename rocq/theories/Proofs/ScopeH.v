(** Constraints refer to allocated variables only (C102): comparison, difficulty, hashing and the header circuit. *)
From Coq Require Import String ZArith Bool List Lia.
From Verif.Model Require Import Base Ints Sha256 CS Bellpepper Util Poly Bignat Gadget Median Difficulty HeaderStep ShaGadget RealHash.
From Verif.Spec Require Import SpecUnique SpecScope.
From Verif.Proofs Require Import Scope.
Import ListNotations.
Local Open Scope Z_scope.

Section Header.
Context {E : Env} (V : var -> Prop) (one : V ONE).
Notation lcV := (lcV V).
Notation kwp := (kwp V).
Notation boolV := (boolV V).
Notation bnV := (bnV V).
Notation anV := (fun a => V (an_var a)).

(** ** comparison and median *)
Lemma k_less_than a b n : V (an_var a) -> V (an_var b) -> kwp (less_than a b n) boolV.
Proof. intros. unfold less_than. kgo. Qed.
Lemma k_leq a b n : V (an_var a) -> V (an_var b) -> kwp (leq a b n) boolV.
Proof. intros. unfold leq. kgo. Qed.
Hint Resolve k_less_than k_leq : kwp.
Lemma k_median_step m s p : V (an_var m) -> V (an_var (snd s)) -> V (an_var (snd p)) ->
  kwp (median_step m s p) (fun s => V (an_var (snd s))).
Proof. intros Hm Hs Hp. destruct s as [o sd], p as [i t]. cbn [snd] in *. unfold median_step. kgo. Qed.
Lemma k_median ts m : kwp (verify_median_timestamp ts m) boolV.
Proof.
  unfold verify_median_timestamp. do 4 kstep. kstep.
  eapply kwp_mono; [apply (kwp_mapM V _ anV); intros; kgo|]. cbv beta. intros fts Hts. do 4 kstep. kstep.
  eapply kwp_mono; [apply (kwp_foldM V _ (fun s => V (an_var (snd s))))|].
  - intros s [i t] Hin Hs. apply in_combine_r in Hin. rewrite Forall_forall in Hts. specialize (Hts _ Hin). now apply k_median_step.
  - exact H0.
  - cbv beta. intros [o sd] Hsd. cbn [snd] in Hsd. kgo.
Qed.
Hint Resolve k_median : kwp.

(** ** difficulty and hashing *)
Lemma k_num_u nm w : kwp (num_u nm w) (fun n => lcV (n_lc n)).
Proof. unfold num_u. kgo. Qed.
Lemma k_bignat_u nm n w k : lcV (n_lc n) -> kwp (bignat_u nm n w k) bnV.
Proof. intros. unfold bignat_u. kgo. Qed.
Lemma k_an_u nm w : kwp (an_u nm w) anV.
Proof. unfold an_u. kgo. Qed.
Hint Resolve k_num_u k_bignat_u k_an_u : kwp.
Lemma k_lt_u nm a b n : V (an_var a) -> V (an_var b) -> kwp (lt_u nm a b n) (fun _ => True).
Proof. intros. unfold lt_u. kgo. Qed.
Lemma k_assert b : kwp (assert b) (fun _ => True).
Proof. destruct b; exact I. Qed.
Hint Resolve k_lt_u k_assert : kwp.
Lemma num_from_V a : V (an_var a) -> lcV (n_lc (num_from a)).
Proof. intros. simpl. auto with sco. Qed.
Hint Resolve num_from_V : sco.
Lemma unwrap_ok {A} (r : res A) a : unwrap_res r = Ok a -> r = Ok a.
Proof. now destruct r. Qed.
Lemma k_difficulty cu cl pu pl t : kwp (verify_difficulty_update cu cl pu pl t) (fun _ => True).
Proof.
  unfold verify_difficulty_update. kgo;
  repeat match goal with H : unwrap_res (concat ?a ?b) = Ok ?c |- _ => apply unwrap_ok in H; apply concat_V with (V := V) in H; [|assumption|assumption] end; kgo.
Qed.
Lemma k_calculate a b : V (an_var a) -> V (an_var b) -> kwp (calculate_difficulty_update a b) bnV.
Proof. intros. unfold calculate_difficulty_update. kgo. Qed.
Lemma k_current_hash a b c d : kwp (verify_current_hash a b c d) boolV.
Proof. unfold verify_current_hash. kgo. Qed.
Hint Resolve k_calculate : kwp.
Lemma k_words pre ws : kwp (words_to_bits pre ws) (Forall boolV).
Proof.
  unfold words_to_bits. kstep. eapply kwp_mono; [apply (kwp_mapM V _ (Forall boolV))|].
  - intros. kgo. now apply Forall_rev.
  - cbv beta. intros bss H. simpl. apply Forall_concat. exact H.
Qed.
Hint Resolve k_words : kwp.
Lemma k_ignore {A} (m : prog A) (Q : A -> Prop) : forall d, kwp m Q -> kwp (ignore_err_at d m) (fun _ => True).
Proof.
  induction m as [a|e| |inp nm w k IH|nm c k IH|nm k IH|k IH]; intros d; simpl; auto; [|intros []; auto].
  intros _. induction d; simpl; auto.
Qed.

Section Sha.
Context (sha : list Boolean -> prog (list Boolean)) (Hsha : forall ins, Forall boolV ins -> kwp (sha ins) (Forall boolV)).
Hint Resolve Hsha : kwp.
Lemma k_check_prev_by b h : kwp (check_prev_hash_by sha b h) (fun _ => True).
Proof.
  unfold check_prev_hash_by. kgo. apply kwp_iterM. intros [i [x y]] Hin. cbn [fst snd]. apply in_combine_r in Hin.
  pose proof (in_combine_r _ _ _ _ Hin) as I2. apply in_combine_l in Hin. rewrite Forall_forall in *.
  apply (k_ignore _ (fun _ => True)). kstep. apply k_bool_enforce_equal; auto.
Qed.
Lemma k_assert_true r : kwp (assert_true r) (fun _ => True).
Proof. unfold assert_true. kgo. Qed.
Hint Resolve k_assert_true : kwp.
Lemma idx_V {A} (P : A -> Prop) l i a : Forall P l -> idx l i = Ok a -> P a.
Proof.
  intros H. unfold idx. destruct (nth_error l i) eqn:G; cbn; [|discriminate]. intros [= <-]. rewrite Forall_forall in H.
  apply H. now apply nth_error_In in G.
Qed.
Ltac kidx := match goal with H : Forall _ ?l, G : idx ?l _ = Ok _ |- _ => apply (idx_V _ _ _ _ H) in G end.
Lemma k_stage_prev h z : Forall anV z -> kwp (stage_prev_hash h z) anV.
Proof. intros. unfold stage_prev_hash. do 8 kstep. kidx. kgo. Qed.
Lemma k_stage_pow_by h : kwp (stage_pow_by sha h) (fun p => V (an_var (snd (fst p))) /\ V (an_var (snd p))).
Proof. unfold stage_pow_by. kgo. Qed.
Lemma k_stage_time h z : kwp (stage_time h z) anV.
Proof. unfold stage_time. kgo. Qed.
Lemma k_stage_work t : V (an_var t) -> kwp (stage_work t) anV.
Proof. intros. unfold stage_work. kgo. Qed.
Lemma k_stage_target b t z : V (an_var t) -> Forall anV z ->
  kwp (stage_target_update b t z) (fun p => bnV (fst (fst p)) /\ V (an_var (snd (fst p))) /\ V (an_var (snd p))).
Proof. intros. unfold stage_target_update. do 4 kstep. kidx. kidx. do 4 kstep. kidx. kgo. Qed.
Lemma vec_set_V {A} (P : A -> Prop) : forall l i a l', Forall P l -> P a -> vec_set i a l = Ok l' -> Forall P l'.
Proof.
  induction l as [|b l IH]; intros i a l' H Ha G.
  - destruct i; discriminate G.
  - inversion H; subst. destruct i as [|i]; cbn [vec_set] in G.
    + injection G as <-. now constructor.
    + destruct (vec_set i a l) as [r| |] eqn:F; cbn [rbind] in G; try discriminate G. injection G as <-. constructor; auto. apply (IH i a); auto.
Qed.
Lemma k_out_copy nm i a z : V (an_var a) -> Forall anV z -> kwp (out_copy nm i a z) (Forall anV).
Proof.
  intros. unfold out_copy. kstep. apply kwp_lift. intros z' G. pose proof (vec_set_V anV _ _ _ _ H0 H G). kstep. kstep. kidx. kgo.
Qed.
Hint Resolve k_out_copy : kwp.
Lemma k_stage_out zo z h t g st w : Forall anV zo -> Forall anV z -> V (an_var h) -> V (an_var t) -> V (an_var g) -> V (an_var st) -> V (an_var w) ->
  kwp (stage_out zo z h t g st w) (Forall anV).
Proof.
  intros. unfold stage_out. kstep. kstep. kstep. eapply kwp_mono; [apply (kwp_foldM V _ (Forall anV))|].
  - intros. kstep. kstep. match goal with G : idx z _ = Ok _ |- _ => apply (idx_V anV) in G; [|assumption] end. kgo.
  - assumption.
  - cbv beta. intros z1 Hz1. do 6 kstep. do 2 kstep. match goal with G : idx z _ = Ok _ |- _ => apply (idx_V anV) in G; [|assumption] end.
    do 2 kstep. do 2 kstep. match goal with G : vec_set _ _ _ = Ok _ |- _ => apply (vec_set_V anV) in G; [|assumption|assumption] end.
    do 2 kstep. do 2 kstep. match goal with G : idx z _ = Ok _ |- _ => apply (idx_V anV) in G; [|assumption] end.
    do 2 kstep. do 2 kstep. match goal with G : vec_set _ _ _ = Ok _ |- _ => apply (vec_set_V anV) in G; [|assumption|assumption] end.
    kgo.
Qed.
Hint Resolve k_stage_prev k_stage_pow_by k_stage_time k_stage_work k_stage_target k_stage_out : kwp.
Lemma k_synthesize_by zo h z : Forall anV zo -> Forall anV z -> kwp (synthesize_by sha zo h z) (Forall anV).
Proof. intros. unfold synthesize_by. kgo. Qed.
End Sha.

(** ** the SHA-256 gadget with its real constraints *)
Lemma k_ab_xor a b : V (ab_var a) -> V (ab_var b) -> kwp (ab_xor a b) (fun b => V (ab_var b)).
Proof. intros. unfold ab_xor. kgo. Qed.
Hint Resolve k_ab_xor : kwp.
Lemma k_xor a b : boolV a -> boolV b -> kwp (bool_xor a b) boolV.
Proof. intros Ha Hb. destruct a as [a|a|[]], b as [b|b|[]]; cbn [bool_xor Scope.boolV bool_not] in *; kgo. Qed.
Lemma k_ch_general a b c : boolV a -> boolV b -> boolV c -> kwp (ch_general a b c) boolV.
Proof. intros. unfold ch_general. kgo. Qed.
Lemma k_maj_general a b c : boolV a -> boolV b -> boolV c -> kwp (maj_general a b c) boolV.
Proof. intros. unfold maj_general. kgo. Qed.
Hint Resolve k_ch_general k_maj_general : kwp.
Lemma k_ch a b c : boolV a -> boolV b -> boolV c -> kwp (bool_ch a b c) boolV.
Proof.
  intros Ha Hb Hc. destruct a as [a|a|[]], b as [b|b|[]], c as [c|c|[]]; unfold bool_ch; kgo; exact I.
Qed.
Lemma k_maj a b c : boolV a -> boolV b -> boolV c -> kwp (bool_maj a b c) boolV.
Proof.
  intros Ha Hb Hc. destruct a as [a|a|[]], b as [b|b|[]], c as [c|c|[]]; unfold bool_maj; kgo; exact I.
Qed.
Definition uV (u : u32) : Prop := Forall boolV (u_bits u).
Lemma u_constant_V v : uV (u_constant v).
Proof. apply Forall_map, Forall_forall. intros; exact I. Qed.
Lemma Forall_skipn {A} (P : A -> Prop) n l : Forall P l -> Forall P (skipn n l).
Proof. intros H. rewrite <- (firstn_skipn n l) in H. now apply Forall_app in H. Qed.
Lemma Forall_firstn {A} (P : A -> Prop) n l : Forall P l -> Forall P (firstn n l).
Proof. intros H. rewrite <- (firstn_skipn n l) in H. now apply Forall_app in H. Qed.
Lemma u_rotr_V n u : uV u -> uV (u_rotr n u).
Proof. intros H. apply Forall_firstn, Forall_app. split; [now apply Forall_skipn|exact H]. Qed.
Lemma u_shr_V n u : uV u -> uV (u_shr n u).
Proof.
  intros H. apply Forall_firstn, Forall_app. split; [now apply Forall_skipn|]. apply Forall_forall. intros x Hx. apply repeat_spec in Hx. now subst.
Qed.
Lemma k_u_from_be bits : Forall boolV bits -> kwp (u_from_be bits) uV.
Proof. intros H. unfold u_from_be. kgo. now apply Forall_rev. Qed.
Lemma k_u_xor a b : uV a -> uV b -> kwp (u_xor a b) uV.
Proof.
  intros Ha Hb. unfold u_xor, zip_bits. kstep. eapply kwp_mono; [apply (kwp_mapM V _ boolV)|].
  - intros [i [x y]] Hin. cbn [fst snd]. apply in_combine_r in Hin.
    pose proof (in_combine_r _ _ _ _ Hin) as I2. apply in_combine_l in Hin. unfold uV in *. rewrite Forall_forall in *. kstep. apply k_xor; auto.
  - cbv beta. intros bits Hbits. exact Hbits.
Qed.
Lemma k_triop nm f g a b c : (forall x y z, boolV x -> boolV y -> boolV z -> kwp (f x y z) boolV) ->
  uV a -> uV b -> uV c -> kwp (u_triop nm f g a b c) uV.
Proof.
  intros Hf Ha Hb Hc. unfold u_triop, zip3_bits. kstep. eapply kwp_mono; [apply (kwp_mapM V _ boolV)|].
  - intros [i [x [y z]]] Hin. cbn [fst snd]. apply in_combine_r in Hin.
    pose proof (in_combine_r _ _ _ _ Hin) as I2. pose proof (in_combine_r _ _ _ _ I2) as I3. apply in_combine_l in I2.
    apply in_combine_l in Hin. unfold uV in *. rewrite Forall_forall in *. kstep. apply Hf; auto.
  - cbv beta. intros bits Hbits. exact Hbits.
Qed.
Lemma k_u_ch a b c : uV a -> uV b -> uV c -> kwp (u_ch a b c) uV.
Proof. apply k_triop. exact k_ch. Qed.
Lemma k_u_maj a b c : uV a -> uV b -> uV c -> kwp (u_maj a b c) uV.
Proof. apply k_triop. exact k_maj. Qed.
Definition mqV (q : meq) : Prop := lcV (mq_lhs q) /\ lcV (mq_rhs q).
Lemma k_mq_accumulate q : mqV q -> kwp (mq_accumulate q) mqV.
Proof. intros [? ?]. unfold mq_accumulate. kgo. split; apply lcV_zero. Qed.
Lemma k_mq_enforce q n l r : mqV q -> lcV l -> lcV r -> kwp (mq_enforce_equal q n l r) mqV.
Proof.
  intros Hq Hl Hr. unfold mq_enforce_equal. apply kwp_bind. apply kwp_mono with (Q := mqV).
  - destruct (_ <=? _)%nat; [now apply k_mq_accumulate|exact Hq].
  - intros q' [? ?]. kgo. split; simpl; auto with sco.
Qed.
Lemma k_mq_drop q : mqV q -> kwp (mq_drop q) (fun _ => True).
Proof. intros H. unfold mq_drop. kstep; [|exact I]. kstep. eapply kwp_mono; [apply k_mq_accumulate; exact H|]. intros; exact I. Qed.
Lemma weighted_V bits : Forall boolV bits -> lcV (weighted bits).
Proof.
  intros H. apply lcV_flat, Forall_forall. intros [i b] Hin. apply in_combine_r in Hin. rewrite Forall_forall in H. cbn [fst snd]. auto with sco.
Qed.
Definition quV (p : meq * u32) : Prop := mqV (fst p) /\ uV (snd p).
Lemma k_u_addmany q ops : mqV q -> Forall uV ops -> kwp (u_addmany q ops) quV.
Proof.
  intros Hq Ho. unfold u_addmany. do 3 (kstep; [exact I|]). cbv zeta.
  assert (Hl : lcV (flat_map (fun u => weighted (u_bits u)) ops)).
  { apply lcV_flat. eapply Forall_impl; [|exact Ho]. intros u Hu. now apply weighted_V. }
  assert (K : forall v n r, kwp (bind (mapM (fun i => bind (ns (Nmi "result bit_gadget " i "") (ab_alloc (r i))) (fun b => Ret (BIs b))) (seq 0 n)) (fun bits =>
     bind (mq_enforce_equal q n (flat_map (fun u => weighted (u_bits u)) ops) (weighted bits)) (fun q => Ret (q, mkU32 (firstn 32 bits) v)))) quV).
  { intros v n r. kstep. eapply kwp_mono; [apply (kwp_mapM V _ boolV); intros; kgo|]. cbv beta. intros bits Hb. kstep.
    eapply kwp_mono; [apply k_mq_enforce; auto using weighted_V|]. cbv beta. intros q' Hq'. split; [exact Hq'|]. apply Forall_firstn. exact Hb. }
  destruct (forallb _ ops); [|apply K]. destruct (option_map w32 _) as [v|]; [|apply K]. split; [exact Hq|apply u_constant_V].
Qed.
Hint Resolve u_rotr_V u_shr_V u_constant_V : sco.
Hint Resolve k_u_xor k_u_ch k_u_maj : kwp.
Definition qwV (p : meq * list u32) : Prop := mqV (fst p) /\ Forall uV (snd p).
Lemma k_w_extend s i : qwV s -> kwp (w_extend s i) qwV.
Proof.
  destruct s as [q w]. intros [Hq Hw]. cbn [fst snd] in *. unfold w_extend.
  repeat (kstep || match goal with G : idx w _ = Ok _ |- _ => apply (idx_V uV) in G; [|assumption] end).
  eapply kwp_mono; [apply k_u_addmany; auto|]. intros [q' t] [Hq' Ht]. split; [exact Hq'|]. apply Forall_app. split; [exact Hw|]. constructor; [exact Ht|constructor].
Qed.
Definition mbV (m : maybe) : Prop := match m with Deferred us => Forall uV us | Concrete u => uV u end.
Lemma k_mb q m o : mqV q -> mbV m -> Forall uV o -> kwp (mb_compute q m o) quV.
Proof.
  intros Hq Hm Ho. destruct m as [us|u]; cbn [mb_compute]; [|split; auto]. apply k_u_addmany; auto. apply Forall_app. auto.
Qed.
Definition rV (v : rvars) : Prop := mbV (ra v) /\ uV (rb v) /\ uV (rc v) /\ uV (rd v) /\ mbV (re v) /\ uV (rf v) /\ uV (rg v) /\ uV (rh v).
Definition qrV (p : meq * rvars) : Prop := mqV (fst p) /\ rV (snd p).
Lemma k_round w s i : Forall uV w -> qrV s -> kwp (sha_round w s i) qrV.
Proof.
  intros Hw. destruct s as [q v]. intros [Hq (Ha & Hb & Hc & Hd & He & Hf & Hg & Hh)]. cbn [fst snd] in *. unfold sha_round. do 3 kstep.
  eapply kwp_mono; [apply k_mb; auto|]. intros [q1 e] [Hq1 He1]. cbn [fst snd] in *. do 3 kstep. do 3 kstep. do 3 kstep. do 2 kstep.
  match goal with G : idx w _ = Ok _ |- _ => apply (idx_V uV) in G; [|assumption] end. do 2 kstep.
  eapply kwp_mono; [apply k_mb; auto|]. intros [q2 new_a] [Hq2 Ha2]. cbn [fst snd] in *. do 3 kstep. do 3 kstep. do 3 kstep. cbn [Scope.kwp].
  split; [exact Hq2|]. unfold rV. cbn [snd ra rb rc rd re rf rg rh mbV app]. repeat split; auto; repeat (apply Forall_cons; auto with sco).
Qed.
Lemma chunks_V n k : forall l, Forall boolV l -> Forall (Forall boolV) (chunks n k l).
Proof.
  induction n as [|n IH]; intros l H; [destruct l; constructor|]. destruct l as [|b l]; [constructor|]. cbn [chunks].
  constructor; [apply (Forall_firstn _ k _ H)|apply IH; apply (Forall_skipn _ k _ H)].
Qed.
Lemma k_compress input cur : Forall boolV input -> Forall uV cur -> kwp (sha_compress input cur) (Forall uV).
Proof.
  intros Hi Hc. unfold sha_compress. kstep; [exact I|].
  destruct cur as [|h0 [|h1 [|h2 [|h3 [|h4 [|h5 [|h6 [|h7 [|? ?]]]]]]]]]; try exact I.
  repeat match goal with H : Forall uV (_ :: _) |- _ => inversion H; subst; clear H end.
  kstep. eapply kwp_mono; [apply (kwp_mapM V _ uV)|].
  - intros c Hin. apply k_u_from_be. pose proof (chunks_V 512 32 _ Hi) as G. rewrite Forall_forall in G. now apply G.
  - cbv beta. intros w Hw. kstep. eapply kwp_mono; [apply (kwp_foldM V _ qwV)|].
    + intros s i _ Hs. now apply k_w_extend.
    + split; [split; apply lcV_zero|exact Hw].
    + cbv beta. intros [q w'] [Hq Hw']. cbn [fst snd] in *. kstep. eapply kwp_mono; [apply (kwp_foldM V _ qrV)|].
      * intros s i _ Hs. now apply k_round.
      * split; [exact Hq|]. repeat split; auto.
      * cbv beta. intros [q1 v] [Hq1 (Ha & Hb & Hcc & Hd & He & Hf & Hg & Hh)]. cbn [fst snd] in *.
        do 2 kstep. eapply kwp_mono; [apply k_mb; auto|]. intros [q2 o0] [Hq2 Ho0]. cbn [fst snd] in *.
        do 2 kstep. eapply kwp_mono; [apply k_u_addmany; auto|]. intros [q3 o1] [Hq3 Ho1]. cbn [fst snd] in *.
        do 2 kstep. eapply kwp_mono; [apply k_u_addmany; auto|]. intros [q4 o2] [Hq4 Ho2]. cbn [fst snd] in *.
        do 2 kstep. eapply kwp_mono; [apply k_u_addmany; auto|]. intros [q5 o3] [Hq5 Ho3]. cbn [fst snd] in *.
        do 2 kstep. eapply kwp_mono; [apply k_mb; auto|]. intros [q6 o4] [Hq6 Ho4]. cbn [fst snd] in *.
        do 2 kstep. eapply kwp_mono; [apply k_u_addmany; auto|]. intros [q7 o5] [Hq7 Ho5]. cbn [fst snd] in *.
        do 2 kstep. eapply kwp_mono; [apply k_u_addmany; auto|]. intros [q8 o6] [Hq8 Ho6]. cbn [fst snd] in *.
        do 2 kstep. eapply kwp_mono; [apply k_u_addmany; auto|]. intros [q9 o7] [Hq9 Ho7]. cbn [fst snd] in *.
        kstep. eapply kwp_mono; [apply k_mq_drop; auto|]. intros _ _. cbn [Scope.kwp]. repeat constructor; auto.
Qed.
Lemma k_sha_r1cs ins : Forall boolV ins -> kwp (sha256_r1cs ins) (Forall boolV).
Proof.
  intros H. unfold sha256_r1cs. kstep; [exact I|]. cbv zeta.
  assert (Hp : Forall boolV (sha_pad ins)).
  { unfold sha_pad. apply Forall_app. split; [exact H|]. constructor; [exact I|]. apply Forall_app.
    split; [apply Forall_forall; intros x Hx; apply repeat_spec in Hx; now subst|]. apply Forall_map, Forall_forall. intros; exact I. }
  kstep. eapply kwp_mono; [apply (kwp_foldM V _ (Forall uV))|].
  - intros s [i c] Hin Hs. cbn [fst snd]. apply in_combine_r in Hin. kstep. apply k_compress; auto.
    pose proof (chunks_V (length (sha_pad ins)) 512 _ Hp) as G. rewrite Forall_forall in G. now apply G.
  - apply Forall_map, Forall_forall. intros; apply u_constant_V.
  - cbv beta. intros cur Hcur. cbn [Scope.kwp]. apply Forall_flat. eapply Forall_impl; [|exact Hcur]. intros u Hu. now apply Forall_rev.
Qed.
End Header.
Global Hint Resolve k_less_than k_leq k_median_step k_median k_num_u k_bignat_u k_an_u k_lt_u k_assert k_difficulty k_calculate k_current_hash k_words k_assert_true k_stage_prev k_stage_time k_stage_work k_stage_target k_out_copy k_stage_out k_ab_xor k_xor k_ch_general k_maj_general k_ch k_maj k_u_from_be k_u_xor k_u_ch k_u_maj k_mq_accumulate k_mq_enforce k_mq_drop k_u_addmany k_w_extend k_mb k_round k_compress k_sha_r1cs : kwp.
