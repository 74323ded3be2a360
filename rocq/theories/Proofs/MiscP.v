(** The built-in initial state of the step, and comparison, allocation and display of numbers. *)
From Coq Require Import ZArith Bool List Sorted Ascii String DecimalString Decimal DecimalZ Lia.
From Verif.Model Require Import Base Sha256 CS Bellpepper Util Poly Bignat BignatMisc Ints Median Difficulty HeaderStep Fields.
From Verif.Spec Require Import Spec SpecHeader SpecChain.
From Verif.Proofs Require Import Field Convert Wp BignatEq TopBignat1 Prime PrimeFields MedianV DifficultyP TopDifficulty MedianEx DifficultyEx Owp HeaderInts HeaderBytes HeaderPanics HeaderP HeaderW HeaderOut HeaderEx.
Import ListNotations.
Local Open Scope string_scope.
Local Open Scope Z_scope.
Local Open Scope list_scope.

Definition initial_ints : list Z :=
  [18283544428642297129396529020735695233361821945456783020785813;
   1305191152; 1305191688; 1305193319; 1305194571; 1305194986; 1305195947;
   1305197900; 1305199436; 1305200301; 1305200460; 1305200584;
   171262555713783851185422181139260521316022447660158187451973632].

Lemma initial_strings_ints : initial_strings = map bigint_display initial_ints.
Proof. vm_compute. reflexivity. Qed.

Section Init.
Context {E : Env} {W : Wf E}.

Lemma rmapM_display l : Forall (fun n => 0 <= n < modulus) l ->
  rmapM (fun s => unwrap (from_str_vartime s)) (map bigint_display l) = Ok l.
Proof.
  induction 1 as [|n l Hn _ IH]; [reflexivity|]. cbn [map rmapM].
  change (from_str_vartime (bigint_display n)) with (nat_to_f n). rewrite nat_to_f_spec.
  destruct (Z.ltb_spec n 0); [lia|]. cbn [unwrap rbind]. rewrite IH. cbn [rbind].
  now rewrite fmk_small.
Qed.

Lemma top_initial_state : 2 ^ 207 <= modulus ->
  initial_z_i_scalars = Ok ([prev_hash_field block_123456] ++
    [1305191152; 1305191688; 1305193319; 1305194571; 1305194986; 1305195947; 1305197900; 1305199436; 1305200301; 1305200460; 1305200584] ++
    [compact_target (nbits_field block_123456); 1304975844; 480; 0]).
Proof.
  intros HM. unfold initial_z_i_scalars. rewrite initial_strings_ints, rmapM_display.
  2:{ assert (L : 171262555713783851185422181139260521316022447660158187451973632 < 2 ^ 207) by reflexivity.
      unfold initial_ints. repeat (constructor; [lia|]). constructor. }
  cbn [rbind]. rewrite prev_123456.
  assert (C : compact_target (nbits_field block_123456) = 171262555713783851185422181139260521316022447660158187451973632) by (vm_compute; reflexivity).
  rewrite C. unfold initial_ints. unfold from_u64, fzero. rewrite !fmk_small by lia. reflexivity.
Qed.

Lemma owp_unwrap_panic {A} rho (m : prog A) : owp rho m (fun r => r = Panic) -> owp rho (unwrap_prog m) (fun r => r = Panic).
Proof.
  induction m as [a|e| |inp nm w k IH|nm c k IH|nm k IH|k IH]; cbn [owp unwrap_prog]; intros H; auto; try discriminate.
  destruct w as [v|e|]; cbn [unwrap_res]; auto; discriminate.
Qed.

Lemma top_epoch_panics b target z s z13 t : good s -> nth_error z 13 = Some z13 -> an_at s z13 t ->
  2 ^ 64 <= modulus -> ~ (302400 < t < 4838400) -> fst (run true (stage_target_update b target z) s) = Panic.
Proof.
  intros G H13 A13 HM Ht.
  apply (owp_result _ s (fun r => r = Panic) G). intros rho Hag one.
  unfold stage_target_update. unfold idx. rewrite H13.
  destruct (nth_error z 12) as [z12|]; cbn [unwrap lift bind enforce owp]; [|reflexivity].
  destruct (nth_error z 14) as [z14|]; cbn [unwrap lift bind enforce owp]; [|reflexivity].
  apply owp_bind. eapply owp_mono; [apply owp_unwrap_panic, owp_ns, (calc_panics rho one z12 z13 t)|].
  - apply num_bits_above. change (Z.of_nat 32) with 32. lia.
  - lia.
  - exact (an_at_is _ _ _ _ A13 Hag one).
  - exact Ht.
  - cbv beta. intros r ->. reflexivity.
Qed.

Lemma top_initial_panics b target z vs s : good s -> 2 ^ 207 <= modulus -> initial_z_i_scalars = Ok vs -> Forall2 (an_at s) z vs ->
  fst (run true (stage_target_update b target z) s) = Panic.
Proof.
  intros G HM HI HF. rewrite (top_initial_state HM) in HI. cbn [app] in HI.
  match type of HI with Ok ?l = _ => assert (e : vs = l) by congruence end. subst vs. clear HI.
  match type of HF with Forall2 _ _ ?l => set (vs := l) in HF; assert (N13 : nth_error vs 13 = Some 1304975844) by reflexivity end.
  clearbody vs. assert (K : forall (z : list allocated_num) vs i v, Forall2 (an_at s) z vs -> nth_error vs i = Some v -> exists y, nth_error z i = Some y /\ an_at s y v).
  { clear. intros z vs i v H. revert i. induction H as [|y w z vs Hy _ IH]; intros [|i] Hi; try discriminate Hi.
    - injection Hi as ->. exists y. auto.
    - exact (IH i Hi). }
  destruct (K z vs 13%nat _ HF N13) as (y & Hy & Ay). apply (top_epoch_panics b target z s y 1304975844 G Hy Ay); lia.
Qed.
End Init.

(** ** Comparison, allocation and display *)
Lemma params_eqb_iff p q : params_eqb p q = true <-> p = q.
Proof.
  unfold params_eqb. rewrite !andb_true_iff, !Nat.eqb_eq, Z.eqb_eq. destruct p, q; cbn. split.
  - intros (((-> & ->) & ->) & ->). reflexivity.
  - intros H. injection H. auto.
Qed.
Lemma value_eqb_iff a b : value_eqb a b = true <-> a = b.
Proof. destruct a, b; cbn; rewrite ?Z.eqb_eq; split; intros H; try congruence; auto. Qed.
Lemma top_eqb_iff a b : bn_eqb a b = true <-> value a = value b /\ bparams a = bparams b.
Proof. unfold bn_eqb. now rewrite andb_true_iff, value_eqb_iff, params_eqb_iff. Qed.

Section Misc.
Context {E : Env}.

Lemma mapM_shape_captured (f : nat -> name) (g : nat -> res Z) l : forall s, exists xs s',
  run false (mapM (fun i => alloc (f i) (g i)) l) s = (Ok xs, s') /\ captured xs = [].
Proof.
  induction l as [|i l IH]; intros s.
  - exists [], s. split; reflexivity.
  - cbn [mapM]. unfold alloc at 1. cbn [bind run].
    destruct (IH (push_var false (f i) 0 s)) as (xs & s' & H1 & H2).
    rewrite run_bind, H1. cbn [run]. eexists _, s'. split; [reflexivity|]. cbn [captured flat_map snd]. exact H2.
Qed.

Lemma alloc_shape f w n s : exists b s', run false (alloc_from_nat f w n) s = (Ok b, s') /\ value b = None /\ bparams b = params_new w n.
Proof.
  unfold alloc_from_nat. rewrite run_bind.
  match goal with |- context [mapM ?F (seq 0 n)] => destruct (mapM_shape_captured (fun i => Nmi "limb " i "")
    (fun i => match (let? v := f in let? vs := nat_to_limbs v w n in Ok (vs, v)) with Ok (vs, _) => idx vs i | Err _ => Err IoError | Panic => Panic end)
    (seq 0 n) s) as (xs & s' & H1 & H2) end.
  cbv zeta. rewrite H1, H2. cbn [run]. eexists _, s'. split; [reflexivity|]. split; reflexivity.
Qed.

Lemma top_eqb_shape f g w n s : exists a b s', run false (
     let! a := alloc_from_nat f w n in
     let! b := alloc_from_nat g w n in Ret (a, b)) s = (Ok (a, b), s') /\ bn_eqb a b = true.
Proof.
  destruct (alloc_shape f w n s) as (a & s1 & H1 & V1 & P1). destruct (alloc_shape g w n s1) as (b & s2 & H2 & V2 & P2).
  exists a, b, s2. rewrite run_bind, H1, run_bind, H2. split; [reflexivity|]. apply top_eqb_iff. split; congruence.
Qed.

Lemma top_gadget_alloc {W : Wf E} v p s : good s -> (1 <= n_limbs p)%nat -> (limb_width p < NUM_BITS)%nat ->
  0 <= v < 2 ^ Z.of_nat (limb_width p * n_limbs p) ->
  exists b s' vs, run true (gadget_alloc (Some v) p) s = (Ok b, s') /\ good s' /\
    bignat_at s' b vs /\ value b = Some v /\ List.length vs = n_limbs p /\ Forall (fun d => 0 <= d < 2 ^ Z.of_nat (limb_width p)) vs /\
    min_bits (bparams b) = 0%nat /\ max_word (bparams b) = 2 ^ Z.of_nat (limb_width p) - 1.
Proof.
  intros G Hn Hw Hv. destruct (top_alloc_from_nat v (limb_width p) (n_limbs p) s G Hn Hw Hv) as (b & s' & vs & H1 & H2 & H3 & H4 & H5 & H6 & H7).
  exists b, s', vs. rewrite H6. cbn [params_new min_bits max_word]. rewrite Z.shiftl_1_l. repeat (split; auto).
Qed.
Lemma top_gadget_alloc_missing p s : (1 <= n_limbs p)%nat -> fst (run true (gadget_alloc None p) s) = Err IoError.
Proof.
  intros Hn. unfold gadget_alloc, alloc_from_nat. cbn [grab rbind]. destruct (n_limbs p); [lia|]. reflexivity.
Qed.
End Misc.

Lemma string_app_inj_l (a b c : string) : (a ++ b)%string = (a ++ c)%string -> b = c.
Proof. induction a; cbn; auto. intros H. injection H. auto. Qed.
Lemma string_app_inj_r (a b c : string) : (a ++ c)%string = (b ++ c)%string -> a = b.
Proof.
  intros H.
  assert (L : forall x y, String.length (x ++ y)%string = (String.length x + String.length y)%nat) by (induction x; cbn; intros; auto).
  assert (HL : String.length a = String.length b) by (apply (f_equal String.length) in H; rewrite !L in H; lia).
  revert b H HL. induction a as [|x a IH]; intros [|y b] H HL; try discriminate HL; auto.
  cbn in H. injection H as -> H. f_equal. apply IH; auto.
Qed.
Lemma to_int_nonnil n : Z.to_int n <> Pos Nil /\ Z.to_int n <> Neg Nil.
Proof.
  destruct n as [|p|p]; cbn [Z.to_int]; split; try discriminate; intros H; injection H as H;
    exact (DecimalPos.Unsigned.to_uint_nonnil p H).
Qed.
Lemma display_inj m n : bigint_display m = bigint_display n -> m = n.
Proof.
  unfold bigint_display. intros H. apply (f_equal NilZero.int_of_string) in H.
  destruct (to_int_nonnil m), (to_int_nonnil n).
  rewrite !NilZero.isi in H by auto. injection H as H. apply (f_equal Z.of_int) in H.
  now rewrite !DecimalZ.of_to in H.
Qed.
Lemma display_no_empty n : (bigint_display n ++ ")")%string <> "empty)".
Proof.
  intros H. assert (K : bigint_display n = "empty") by (apply (string_app_inj_r _ _ ")"); exact H).
  unfold bigint_display in K. apply (f_equal NilZero.int_of_string) in K.
  destruct (to_int_nonnil n). rewrite NilZero.isi in K by auto. discriminate K.
Qed.
Lemma top_display_iff a b : bn_display a = bn_display b <-> value a = value b.
Proof.
  unfold bn_display. split; [|intros ->; reflexivity].
  destruct (value a) as [m|], (value b) as [n|]; intros H; auto.
  - apply string_app_inj_l, string_app_inj_r, display_inj in H. now subst.
  - exfalso. apply (display_no_empty m). apply (string_app_inj_l "BigNat("). exact H.
  - exfalso. apply (display_no_empty n). apply (string_app_inj_l "BigNat("). symmetry. exact H.
Qed.

Lemma bits_display_inj u : forall v, bits_display u = bits_display v -> u = v.
Proof.
  induction u as [|x u IH]; intros [|y v] H; auto; try (destruct x + destruct y; discriminate H).
  destruct x, y; cbn in H; try discriminate H; injection H as H; f_equal; auto.
Qed.
Lemma top_bv_display a b : bv_display a = bv_display b <->
  bv_vals a = bv_vals b /\ (bv_vals a = None -> List.length (bv_bits a) = List.length (bv_bits b)).
Proof.
  unfold bv_display. assert (N : forall vs t, (bits_display vs ++ ")")%string <> ("len " ++ t)%string).
  { intros [|[] vs] t H; discriminate H. }
  assert (C : forall x y, ("Bitvector(" ++ x)%string = ("Bitvector(len " ++ y)%string -> x = ("len " ++ y)%string).
  { intros x y H. apply (string_app_inj_l "Bitvector("). exact H. }
  split.
  - destruct (bv_vals a) as [u|], (bv_vals b) as [v|]; intros H.
    + apply string_app_inj_l, string_app_inj_r, bits_display_inj in H. subst. split; [auto|discriminate].
    + exfalso. exact (N _ _ (C _ _ H)).
    + exfalso. symmetry in H. exact (N _ _ (C _ _ H)).
    + split; auto. intros _. apply string_app_inj_l, string_app_inj_r, display_inj in H. lia.
  - intros [H1 H2]. rewrite <- H1. destruct (bv_vals a); auto. now rewrite H2.
Qed.
(** Character [i] of the digits is the value of bit [i]. *)
Lemma bits_display_get vs : forall i v, nth_error vs i = Some v ->
  String.get i (bits_display vs) = Some (if v then "1" else "0")%char.
Proof.
  induction vs as [|x vs IH]; intros [|i] v H; try discriminate H; cbn in H.
  - injection H as ->. destruct v; reflexivity.
  - destruct x; cbn; auto.
Qed.
Lemma bits_display_len vs : String.length (bits_display vs) = List.length vs.
Proof. induction vs as [|[] vs IH]; cbn; auto. Qed.
Lemma get_app a b : forall i, String.get (String.length a + i) (a ++ b)%string = String.get i b.
Proof. induction a; cbn; auto. Qed.
Lemma get_app_l a b : forall i c, String.get i a = Some c -> String.get i (a ++ b)%string = Some c.
Proof. induction a as [|x a IH]; intros [|i] c H; cbn in *; try discriminate H; auto. Qed.
Lemma top_bv_display_digit b vs i v : bv_vals b = Some vs -> nth_error vs i = Some v ->
  String.get (10 + i) (bv_display b) = Some (if v then "1" else "0")%char.
Proof.
  intros H1 H2. unfold bv_display. rewrite H1. change 10%nat with (String.length "Bitvector("). rewrite get_app.
  now apply get_app_l, bits_display_get.
Qed.
Lemma top_bv_display_len b vs : bv_vals b = Some vs -> String.length (bv_display b) = (11 + List.length vs)%nat.
Proof.
  intros H. unfold bv_display. rewrite H. assert (L : forall x y, String.length (x ++ y)%string = (String.length x + String.length y)%nat) by (induction x; cbn; intros; auto).
  rewrite !L, bits_display_len. cbn [String.length]. lia.
Qed.

(** ** Instances *)
Lemma C76_witness : let E := pallas_env true in 2 ^ 207 <= modulus /\ exists vs, initial_z_i_scalars = Ok vs /\
  List.length vs = arity /\ StronglySorted Z.lt (firstn 11 (skipn 1 vs)) /\ Forall canon vs.
Proof.
  intros E. pose proof (wf_pallas true) as W. fold E in W. assert (HM : 2 ^ 207 <= @modulus E) by (vm_compute; discriminate).
  split; [exact HM|]. pose proof (@top_initial_state E HM) as HI.
  assert (L : 171262555713783851185422181139260521316022447660158187451973632 < 2 ^ 207) by reflexivity.
  assert (C : compact_target (nbits_field block_123456) = 171262555713783851185422181139260521316022447660158187451973632) by (vm_compute; reflexivity).
  rewrite prev_123456, C in HI. clear C. cbn [app] in HI.
  match type of HI with _ = Ok ?l => exists l end. split; [exact HI|]. clear HI. split; [reflexivity|]. split.
  - cbn [skipn firstn]. repeat (constructor; [|repeat (constructor; [reflexivity|]); constructor]). constructor.
  - unfold canon. set (m := @modulus E) in *. clearbody m. repeat (constructor; [lia|]). constructor.
Qed.
Lemma C76_state_witness : let E := pallas_env true in exists z vs s,
  good s /\ initial_z_i_scalars = Ok vs /\ Forall2 (an_at s) z vs.
Proof.
  intros E. pose proof (wf_pallas true) as W. fold E in W. destruct C76_witness as (_ & vs & H1 & _ & _ & H2). fold E in H1, H2.
  exists (map (vnum vs) (seq 0 (List.length vs))), vs, (vals_st vs). split; [apply vals_good|]. split; [exact H1|].
  assert (K : forall k, (k <= List.length vs)%nat -> Forall2 (an_at (vals_st vs)) (map (vnum vs) (seq (List.length vs - k) k)) (skipn (List.length vs - k) vs)).
  { induction k as [|k IH]; intros Hk.
    - rewrite Nat.sub_0_r, skipn_all. constructor.
    - cbn [seq map]. replace (S (List.length vs - S k)) with (List.length vs - k)%nat by lia.
      assert (SK : skipn (List.length vs - S k) vs = nth (List.length vs - S k) vs 0 :: skipn (List.length vs - k) vs).
      { replace (List.length vs - k)%nat with (S (List.length vs - S k)) by lia.
        assert (J : forall (l : list Z) i, (i < List.length l)%nat -> skipn i l = nth i l 0 :: skipn (S i) l).
        { induction l as [|x l IHl]; intros [|i] Hi; cbn in *; try lia; auto. apply IHl. lia. }
        apply J. lia. }
      rewrite SK. constructor; [apply vnum_at; [exact H2|lia]|apply IH; lia]. }
  specialize (K (List.length vs) ltac:(lia)). rewrite Nat.sub_diag in K. exact K.
Qed.
Lemma C77_limbs_witness : let E := small_env 251 in
  let '(r, s) := run true (
     let! a := alloc_from_limbs (Ok [9; 3; 0]) (Some 9) 3 3 in
     let! b := alloc_from_limbs (Ok [1; 4; 0]) (Some 9) 3 3 in Ret (a, b)) st_init in
  match r with
  | Ok (a, b) => bn_eqb a b = true /\ wires (asg s) (limbs a) <> wires (asg s) (limbs b) /\
      let '(r', s') := run true (equal a b) s in r' = Ok tt /\ satb (asg s') s' = false
  | _ => False
  end.
Proof. vm_compute. repeat split; discriminate. Qed.
