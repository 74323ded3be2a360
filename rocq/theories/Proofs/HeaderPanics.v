(** [synthesize] panics. *)
From Coq Require Import ZArith Bool String List Lia ZifyBool ZifyNat.
From Verif.Model Require Import Base Sha256 CS Bellpepper Util Poly Bignat Ints Median Difficulty HeaderStep.
From Verif.Spec Require Import Spec SpecHeader.
From Verif.Proofs Require Import Field Wp Lc Arith Convert Limbs Owp Pwp BignatEq MedianP MedianV Shp TopMedian DifficultyP HashP HeaderInts HeaderBytes Panics.
Import ListNotations.
Local Open Scope string_scope.
Local Open Scope Z_scope.
Local Open Scope list_scope.

(** ** No stage returns an error *)
Definition nerr {A} (r : res A) : Prop := forall e, r <> Err e.
Lemma nerr_bind {A B} (r : res A) (f : A -> res B) : nerr r -> (forall a, nerr (f a)) -> nerr (rbind r f).
Proof. intros H1 H2 e. destruct r as [a|e'|]; cbn [rbind]; [apply H2| |discriminate]. exfalso. now apply (H1 e'). Qed.
Lemma nerr_ok {A} (a : A) : nerr (Ok a).
Proof. discriminate. Qed.
Lemma nerr_idx {A} (l : list A) i : nerr (idx l i).
Proof. unfold idx. destruct (nth_error l i); discriminate. Qed.
Lemma nerr_rmapM {A B} (f : A -> res B) : (forall a, nerr (f a)) -> forall l, nerr (rmapM f l).
Proof. intros H. induction l as [|a l IH]; cbn [rmapM]; [discriminate|]. repeat (apply nerr_bind; auto; intros). discriminate. Qed.
Lemma noerr_foldM {A S} wit (f : S -> A -> prog S) : (forall s a, noerr wit (f s a)) -> forall l s, noerr wit (foldM f l s).
Proof. intros H. induction l as [|a l IH]; intros s; cbn [foldM]; [apply noerr_ret|]. apply noerr_bind; auto. Qed.

Section HeaderPanics.
Context {E : Env}.

Lemma nerr_checked w r : nerr (checked w r).
Proof. unfold checked. destruct (_ && _); [discriminate|]. destruct overflow_checks; discriminate. Qed.
Lemma nerr_amount w r : nerr (amount w r).
Proof. unfold amount. destruct (_ <? _); [discriminate|]. destruct overflow_checks; discriminate. Qed.
Lemma nerr_shl w a n : nerr (shl w a n).
Proof. apply nerr_bind; [apply nerr_amount|]. discriminate. Qed.
Lemma nerr_shr w a n : nerr (shr w a n).
Proof. apply nerr_bind; [apply nerr_amount|]. discriminate. Qed.
Ltac nerr := repeat first [apply nerr_checked | apply nerr_amount | apply nerr_shl | apply nerr_shr | apply nerr_idx | apply nerr_ok | exact (unwrap_noerr _) | apply nerr_bind; [|intros ?] ].
Lemma nerr_split n : nerr (split_bytes n).
Proof. unfold split_bytes. nerr. Qed.
Lemma nerr_time b : nerr (time_endian b).
Proof. unfold time_endian. nerr. Qed.
Lemma nerr_word h i : nerr (prev_hash_word h i).
Proof. unfold prev_hash_word. nerr. Qed.
Lemma nerr_state z i : nerr (state_time z i).
Proof. unfold state_time. nerr. Qed.
Lemma nerr_median l : nerr (compute_median_timestamp l).
Proof. unfold compute_median_timestamp. nerr. Qed.

Lemma noerr_an_alloc wit w : nerr w -> noerr wit (an_alloc w).
Proof.
  intros H s e. cbn [an_alloc alloc bind run]. destruct wit; [destruct w as [v|e'|]|]; try discriminate. exfalso. now apply (H e').
Qed.
Lemma noerr_words wit pre ws : noerr wit (words_to_bits pre ws).
Proof.
  unfold words_to_bits. apply noerr_bind; [|intros; apply noerr_ret]. apply noerr_mapM. intros p. apply noerr_bind; [apply noerr_unwrap|intros; apply noerr_ret].
Qed.
Lemma noerr_assert wit r : noerr wit (assert_true r).
Proof. apply noerr_bind; [apply noerr_lift, unwrap_noerr|]. intros [|] s e; discriminate. Qed.
Ltac noerr := repeat first
  [ apply noerr_unwrap | apply noerr_words | apply noerr_assert | apply noerr_enforce | apply noerr_ret
  | apply noerr_lift; (apply nerr_idx || apply nerr_shr || apply nerr_split || apply nerr_time || apply nerr_median
      || exact (unwrap_noerr _) || (apply nerr_rmapM; intros; (apply nerr_word || apply nerr_state)))
  | apply noerr_bind; [|intros ?] ].

Lemma noerr_prev wit h z : noerr wit (stage_prev_hash h z).
Proof. unfold stage_prev_hash, an_u. noerr. Qed.
Lemma noerr_pow wit h : noerr wit (stage_pow h).
Proof. unfold stage_pow, an_u. noerr. Qed.
Lemma noerr_time wit h z : noerr wit (stage_time h z).
Proof. unfold stage_time, an_u. noerr. destruct a0 as [m l]. noerr. Qed.
Lemma noerr_work wit t : noerr wit (stage_work t).
Proof. unfold stage_work, an_u. noerr. Qed.
Lemma noerr_update wit b t z : noerr wit (stage_target_update b t z).
Proof.
  unfold stage_target_update, an_u. noerr.
  - apply noerr_ns, noerr_an_alloc. nerr. destruct (_ =? 0); [discriminate|exact (unwrap_noerr _)].
  - apply noerr_ns, noerr_an_alloc. nerr.
Qed.
Lemma panics_out wit z h t g e w : panics wit (stage_out [] z h t g e w).
Proof. intros s. reflexivity. Qed.

Theorem top_synthesize_panics wit h z s : fst (run wit (synthesize h z) s) = Panic.
Proof.
  revert s. change (panics wit (synthesize h z)). unfold synthesize, synthesize_with.
  apply panics_skip; [apply noerr_prev|]. intros p. apply panics_skip; [apply noerr_pow|]. intros [[b target] hash].
  apply panics_skip; [apply noerr_time|]. intros t. apply panics_skip; [apply noerr_work|]. intros w.
  apply panics_skip; [apply noerr_update|]. intros [[tc ct] st]. apply panics_out.
Qed.

(** ** Without witnesses: at the first assertion *)
(** The outcome of a run without witnesses and the number of constraints emitted. *)
Fixpoint cnt {A} (m : prog A) (n : nat) (Q : res A -> nat -> Prop) : Prop :=
  match m with
  | Ret a => Q (Ok a) n
  | Fail e => Q (Err e) n
  | Crash => Q Panic n
  | Alloc _ _ _ k => forall x, cnt (k x None) n Q
  | Enforce _ _ k => cnt k (S n) Q
  | Push _ k => cnt k n Q
  | Pop k => cnt k n Q
  end.
Lemma cnt_mono {A} (m : prog A) : forall n (Q R : res A -> nat -> Prop), cnt m n Q -> (forall r k, Q r k -> R r k) -> cnt m n R.
Proof. induction m; cbn [cnt]; eauto. Qed.
Lemma cnt_bind {A B} (m : prog A) (f : A -> prog B) Q : forall n,
  cnt m n (fun r k => match r with Ok a => cnt (f a) k Q | Err e => Q (Err e) k | Panic => Q Panic k end) -> cnt (bind m f) n Q.
Proof. induction m; cbn [cnt bind]; auto. Qed.
Lemma cnt_ns {A} nm (m : prog A) n Q : cnt m n Q -> cnt (ns nm m) n Q.
Proof. intros H. cbn [ns cnt]. apply cnt_bind. eapply cnt_mono; [exact H|]. intros [a|e|] k; auto. Qed.
Lemma cnt_unwrap {A} (m : prog A) Q : forall n, cnt m n (fun r k => Q (unwrap_res r) k) -> cnt (unwrap_prog m) n Q.
Proof. induction m; cbn [cnt unwrap_prog]; auto. Qed.
Lemma cnt_run {A} (m : prog A) : forall s n (Q : res A -> nat -> Prop), cnt m n Q -> List.length (st_cons s) = n ->
  Q (fst (run false m s)) (List.length (st_cons (snd (run false m s)))).
Proof.
  induction m; intros s n Q HQ HL; cbn [cnt run fst snd] in *; subst n; auto.
  - eapply H; [apply HQ|]. reflexivity.
  - eapply IHm; [apply HQ|]. reflexivity.
  - eapply IHm; [apply HQ|]. reflexivity.
  - eapply IHm; [apply HQ|]. reflexivity.
Qed.
Lemma cnt_mapM {A B} (f : A -> prog B) c : forall l n (Q : res (list B) -> nat -> Prop),
  (forall a k, cnt (f a) k (fun r k' => (exists b, r = Ok b) /\ k' = (k + c)%nat)) ->
  (forall bs, Q (Ok bs) (n + c * List.length l)%nat) -> cnt (mapM f l) n Q.
Proof.
  induction l as [|a l IH]; intros n Q H HQ; cbn [mapM].
  - cbn [cnt]. specialize (HQ []). cbn [List.length] in HQ. now rewrite Nat.mul_0_r, Nat.add_0_r in HQ.
  - apply cnt_bind. eapply cnt_mono; [apply H|]. intros r k [[b ->] ->]. apply cnt_bind. apply IH; auto. intros bs. cbn [cnt].
    replace (n + c + c * List.length l)%nat with (n + c * List.length (a :: l))%nat by (cbn [List.length]; lia). apply HQ.
Qed.

Lemma cnt_words pre ws n (Q : res (list Boolean) -> nat -> Prop) : (forall bs, Q (Ok bs) (n + 64 * List.length ws)%nat) -> cnt (words_to_bits pre ws) n Q.
Proof.
  intros HQ. unfold words_to_bits. apply cnt_bind. apply (cnt_mapM _ 64).
  - intros p k. apply cnt_bind, cnt_unwrap, cnt_ns. unfold u64_into_boolean_vec_le. apply (cnt_mapM _ 1).
    + intros i k'. apply cnt_bind, cnt_ns. unfold ab_alloc. cbn [alloc bind cnt enforce]. intros x. split; [eauto|lia].
    + intros bs. cbn [unwrap_res cnt]. rewrite seq_length. split; [eauto|lia].
  - intros bss. cbn [cnt]. rewrite combine_length, seq_length, Nat.min_id. apply HQ.
Qed.
Lemma cnt_an_u nm w n (Q : res allocated_num -> nat -> Prop) : (forall a, an_val a = None -> Q (Ok a) n) -> cnt (an_u nm w) n Q.
Proof. intros H. apply cnt_unwrap, cnt_ns. cbn [an_alloc alloc bind cnt]. intros x. now apply H. Qed.
Lemma cnt_equals a b n (Q : res Boolean -> nat -> Prop) : an_val b = None ->
  (forall c, bool_val c = None -> Q (Ok c) (n + 6)%nat) -> cnt (equals a b) n Q.
Proof.
  intros HV HQ. unfold equals, ab_alloc, an_alloc, alloc, enforce, ns. rewrite HV.
  replace (match an_val a with Some _ => None | None => None end) with (@None bool) by (destruct (an_val a); reflexivity).
  cbn [bind cnt]. intros x1 x2 x3 x4. replace (S (S (S (S (S (S n)))))) with (n + 6)%nat by lia. apply HQ. reflexivity.
Qed.

Theorem top_synthesize_shape h z s : header_ok h -> z <> [] ->
  exists s', run false (synthesize h z) s = (Panic, s') /\ List.length (st_cons s') = (List.length (st_cons s) + 262)%nat.
Proof.
  intros H Hz. destruct (run false (synthesize h z) s) as [r s'] eqn:Hr.
  assert (K : r = Panic /\ List.length (st_cons s') = (List.length (st_cons s) + 262)%nat).
  { pose proof (cnt_run (synthesize h z) s (List.length (st_cons s)) (fun r k => r = Panic /\ k = (List.length (st_cons s) + 262)%nat)) as C.
    rewrite Hr in C. cbn [fst snd] in C. apply C; [|reflexivity]. clear C Hr.
    unfold synthesize, synthesize_with, stage_prev_hash. rewrite (prev_words_ok h H). cbn [lift]. apply cnt_bind. cbn [bind]. apply cnt_bind.
    assert (H4 : List.length (prev_words h) = 4%nat).
    { destruct (ten h H) as (a & b & c & d & e & f & g & i & j & k & -> & _). reflexivity. }
    apply cnt_words. intros bs. rewrite H4. apply cnt_bind, cnt_an_u. intros ph Hph.
    destruct z as [|z0 z]; [congruence|]. cbn [idx nth_error unwrap lift bind]. apply cnt_bind, cnt_unwrap, cnt_ns, cnt_equals; auto.
    intros c Hc. cbn [unwrap_res]. apply cnt_bind. unfold assert_true. rewrite Hc. cbn [unwrap lift bind cnt]. split; [reflexivity|lia]. }
  destruct K as [-> HL]. exists s'. split; auto.
Qed.

(** ** With witnesses: even if the output vector were long enough *)
Context {W : Wf E}.
Definition one_ok (s : st) : Prop := forall rho, agree s rho -> rho ONE = 1.
Lemma one_ok_run {A} wit (m : prog A) s r s' : one_ok s -> run wit m s = (r, s') -> one_ok s'.
Proof.
  intros H Hr rho Ha. apply H. apply run_prefix in Hr. destruct Hr as (l1 & l2 & H1 & H2). destruct Ha as [A1 A2]. split; intros n Hn.
  - rewrite A1 by (rewrite H1, app_length; lia). rewrite H1. now apply app_nth1.
  - rewrite A2 by (rewrite H2, app_length; lia). rewrite H2. now apply app_nth1.
Qed.
Definition hpanics {A} (m : prog A) : Prop := forall s, one_ok s -> fst (run true m s) = Panic.
Lemma hpanics_skip {A B} (m : prog A) (f : A -> prog B) : noerr true m -> (forall a, hpanics (f a)) -> hpanics (bind m f).
Proof.
  intros H1 H2 s Hs. specialize (H1 s). rewrite run_bind. destruct (run true m s) as [[a|e|] s1] eqn:Hr; [|exfalso; now apply (H1 e)|reflexivity].
  apply H2. eapply one_ok_run; eauto.
Qed.
Lemma hpanics_bind {A B} (m : prog A) (f : A -> prog B) : hpanics m -> hpanics (bind m f).
Proof. intros H s Hs. specialize (H s Hs). rewrite run_bind. destruct (run true m s) as [[a|e|] s1]; try discriminate. reflexivity. Qed.
Lemma hpanics_lift {A B} (r : res A) (f : A -> prog B) : nerr r -> (forall a, r = Ok a -> hpanics (f a)) -> hpanics (bind (lift r) f).
Proof. intros H1 H2. destruct r as [a|e|]; cbn [lift bind]; [apply H2; reflexivity|exfalso; now apply (H1 e)|intros s _; reflexivity]. Qed.
Lemma hpanics_owp {A} (m : prog A) : (forall rho, rho ONE = 1 -> owp rho m (fun r => r = Panic)) -> hpanics m.
Proof.
  intros H s Hs. destruct (run true m s) as [r s'] eqn:Hr.
  eapply (owp_run m s (fun _ r => r = Panic)) with (rho := asg s') in Hr; [apply Hr| |apply agree_asg].
  intros rho Ha. apply H. now apply Hs.
Qed.

Lemma digits_range b n : forall k, 0 < b -> Forall (fun d => 0 <= d < b) (digits_fuel k b n).
Proof.
  intros k Hb. revert n. induction k as [|k IH]; intros n; cbn [digits_fuel]; [constructor|]. destruct (n <=? 0); constructor; auto. apply Z.mod_pos_bound. lia.
Qed.
Lemma state_time_range z i t : state_time z i = Ok t -> 0 <= t < 2 ^ 32.
Proof.
  unfold state_time. destruct (idx z i) as [a| |]; try discriminate. cbn [rbind]. destruct (unwrap (an_val a)) as [v| |]; try discriminate. cbn [rbind].
  unfold idx, digits. intros H. destruct (nth_error _ 0) as [d|] eqn:Hn; [|discriminate]. injection H as <-.
  pose proof (digits_range (2 ^ 32) (f_to_nat v) (S (Z.to_nat (Z.log2 (f_to_nat v)))) ltac:(lia)) as HF. rewrite Forall_forall in HF. apply HF. eapply nth_error_In; eauto.
Qed.
Lemma rmapM_in {A B} (f : A -> res B) : forall l l', rmapM f l = Ok l' -> forall b, In b l' -> exists a, f a = Ok b.
Proof.
  induction l as [|a l IH]; intros l' H b Hb; cbn [rmapM] in H.
  - injection H as <-. contradiction.
  - destruct (f a) as [x| |] eqn:Hf; try discriminate. cbn [rbind] in H. destruct (rmapM f l) as [y| |] eqn:Hl; try discriminate. cbn [rbind] in H.
    injection H as <-. destruct Hb as [<-|Hb]; eauto.
Qed.
Lemma times_never m t : 0 <= m < 2 ^ 32 -> (t = 0 \/ 2 ^ 48 <= t < 2 ^ 56) -> 2 ^ 57 <= modulus ->
  (fsub (fadd (fmk m) (fmk (2 ^ 33))) (fmk t) <? 2 ^ 33) = false.
Proof.
  intros Hm [->|Ht] HP; apply Z.ltb_ge.
  - replace (fsub (fadd (fmk m) (fmk (2 ^ 33))) (fmk 0)) with (m + 2 ^ 33); [lia|]. symmetry. apply canon_eqp; [apply fsub_canon|split; lia|].
    unfold fsub, fadd. rewrite !eqp_fmk. apply eqp_ring. ring.
  - replace (fsub (fadd (fmk m) (fmk (2 ^ 33))) (fmk t)) with (m + 2 ^ 33 - t + modulus); [lia|]. symmetry. apply canon_eqp; [apply fsub_canon|split; lia|].
    unfold fsub, fadd. rewrite !eqp_fmk. rewrite eqp_eq. replace (m + 2 ^ 33 - t + modulus) with (m + 2 ^ 33 - t + 1 * modulus) by ring. unfold fmk. now rewrite Z.mod_add by lia.
Qed.

Lemma stage_time_panics h z : header_ok h -> 2 ^ 57 <= modulus -> hpanics (stage_time h z).
Proof.
  intros H HP. unfold stage_time. apply hpanics_lift; [apply nerr_rmapM; intros; apply nerr_state|]. intros times HT.
  apply hpanics_lift; [apply nerr_median|]. intros [median sorted] HM.
  assert (Rm : 0 <= median < 2 ^ 32).
  { assert (Hne : times <> []) by (intros ->; discriminate HM).
    destruct (top_median_ok times Hne) as (m0 & l0 & Hc0 & _ & _ & _ & Hin & _). rewrite HM in Hc0. injection Hc0 as <- <-.
    destruct (rmapM_in _ _ _ HT _ Hin) as [i Hi]. eapply state_time_range; eauto. }
  apply hpanics_skip; [apply noerr_unwrap|]. intros r. apply hpanics_skip; [apply noerr_assert|]. intros _.
  apply hpanics_lift; [apply nerr_idx|]. intros h8 H8. apply hpanics_lift; [apply nerr_split|]. intros b Hb.
  apply hpanics_lift; [apply nerr_time|]. intros t Ht.
  destruct (time_field_swap h H) as [_ R8].
  assert (E8 : h8 = nth 8 h 0). { unfold idx in H8. destruct (nth_error h 8) eqn:Hn; [|discriminate]. injection H8 as ->. symmetry. now apply nth_error_nth. }
  assert (Hd : decode_time (h8 mod 2 ^ 32) = Ok t) by (unfold decode_time; rewrite Hb; exact Ht).
  rewrite <- E8 in R8. apply decode_time_val in Hd; auto.
  assert (HN : (32 < NUM_BITS)%nat) by (apply num_bits_above; change (Z.of_nat 32) with 32; lia).
  assert (Rt : t = 0 \/ 2 ^ 48 <= t < 2 ^ 56).
  { pose proof (Z.mod_pos_bound (h8 mod 2 ^ 32) 256 ltac:(lia)). lia. }
  apply hpanics_owp. intros rho one. eapply owp_bind_ok; [apply an_u_hwp|]. intros mf Hmf. eapply owp_bind_ok; [apply an_u_hwp|]. intros ct Hct.
  eapply owp_step; [apply (less_than_hwp rho one mf ct 32 _ _ _ Hmf Hct (zero_shift_low 32 ltac:(lia)) HN)|]. cbv beta.
  intros c [Hv _]. change (Z.of_nat 32 + 1) with 33 in Hv. change (Z.of_nat (1 + 32)) with 33 in Hv. rewrite times_never in Hv by auto.
  unfold assert_true. rewrite Hv. reflexivity.
Qed.

Theorem top_synthesize_with_panics z_out h z s : good s -> header_ok h -> 2 ^ 57 <= modulus -> fst (run true (synthesize_with z_out h z) s) = Panic.
Proof.
  intros G H HP. assert (Hs : one_ok s) by (intros rho Ha; apply (G rho Ha)). revert s Hs G.
  enough (HH : hpanics (synthesize_with z_out h z)) by (intros s Hs _; apply HH; auto).
  unfold synthesize_with. apply hpanics_skip; [apply noerr_prev|]. intros p. apply hpanics_skip; [apply noerr_pow|]. intros [[b target] hash].
  apply hpanics_bind. apply stage_time_panics; auto.
Qed.
End HeaderPanics.
