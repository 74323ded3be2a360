(** C103 from Proofs/UniqueSha.v. *)
From Coq Require Import String ZArith Bool List Lia Setoid Morphisms ZifyBool ZifyNat.
From Verif.Model Require Import Base Sha256 CS Bellpepper Util Poly Bignat Ints Median Difficulty HeaderStep ShaGadget RealHash Fields.
From Verif.Spec Require Import Spec SpecHeader SpecSha SpecWires SpecUnique.
From Verif.Proofs Require Import Field Arith Wp Lc BitNum BoolP Ewp MedianV HashP HeaderPanics ShaBits ShaP ShaInst RealHashP Unique UniqueG UniqueC UniqueD TopUnique UniqueSha PrimeFields HeaderEx RealHashEx.
Import ListNotations.
Local Open Scope string_scope.
Local Open Scope Z_scope.
Local Open Scope list_scope.
Notation length := List.length (only parsing).

Section TopUniqueSha.
Context {E : Env} {W : Wf E}.

Lemma bool_values rho ins : Forall (fun b => feval rho (bool_lc b 1) = 0 \/ feval rho (bool_lc b 1) = 1) ins -> exists vs, Forall2 (wire_bool rho) ins vs.
Proof.
  intros H. induction H as [|b ins Hb H (vs & IH)]; [exists []; constructor|].
  destruct Hb as [Hb|Hb]; [exists (false :: vs)|exists (true :: vs)]; constructor; auto; now apply wire_feval.
Qed.
Lemma wires_move r1 r2 ins vs : Forall (UniqueD.det r1 r2) ins -> Forall2 (wire_bool r1) ins vs -> Forall2 (wire_bool r2) ins vs.
Proof.
  intros HD H. induction H as [|b v ins vs Hb H IH]; [constructor|]. inversion HD as [|? ? HB HD']; subst. constructor; auto.
  unfold wire_bool, wire_bit, UniqueD.det, Unique.leq in *. now rewrite <- HB.
Qed.
Lemma F2_same_out r1 r2 outs vs : Forall2 (wire_bool r1) outs vs -> Forall2 (wire_bool r2) outs vs ->
  Forall (fun b => feval r1 (bool_lc b 1) = feval r2 (bool_lc b 1)) outs.
Proof.
  intros H. induction H as [|b v outs vs Hb H IH]; intros K; [constructor|]. inversion K; subst. constructor; auto.
  apply wire_feval in Hb. match goal with H : wire_bool r2 b _ |- _ => apply wire_feval in H; rewrite Hb, H end. reflexivity.
Qed.

Lemma sha_len wit ins s outs s' : run wit (sha256_r1cs ins) s = (Ok outs, s') -> (length ins mod 8 = 0)%nat.
Proof. unfold sha256_r1cs. destruct (Nat.eqb_spec (length ins mod 8) 0); cbn [negb]; [auto|discriminate]. Qed.

Lemma top_unique_hash wit ins s outs s' r1 r2 : twice wit (sha256_r1cs ins) s outs s' r1 r2 ->
  Forall (fun b => made_of s (bool_lc b 1)) ins ->
  Forall (fun b => feval r1 (bool_lc b 1) = 0 \/ feval r1 (bool_lc b 1) = 1) ins ->
  alike s' r1 r2 /\ Forall (fun b => feval r1 (bool_lc b 1) = feval r2 (bool_lc b 1)) outs.
Proof.
  intros H HM HB. destruct (twice_one _ _ _ _ _ _ _ H) as (one1 & one2 & Ha). pose proof H as (Hr & _).
  destruct (bool_values r1 ins HB) as [vs Hv].
  assert (HD : Forall (UniqueD.det r1 r2) ins) by (eapply Forall_impl; [|exact HM]; intros b Hb; eapply made_of_leq; eauto).
  destruct (twice_uwp _ _ _ _ _ _ _ _ H (sha_uwp r1 r2 one1 one2 ins vs (sha_len _ _ _ _ _ Hr) Hv (wires_move _ _ _ _ HD Hv))) as (l & (H1 & H2 & HL) & K).
  split; [auto|]. eapply F2_same_out; eauto.
Qed.

Definition twice_hashed (nm1 nm2 : name) (ins : list Boolean) : prog (list Boolean) :=
  let! d := unwrap_prog (ns nm1 (sha256_r1cs ins)) in unwrap_prog (ns nm2 (sha256_r1cs d)).

Lemma double_uwp r1 r2 nm1 nm2 ins vs : r1 ONE = 1 -> r2 ONE = 1 -> (length ins mod 8 = 0)%nat ->
  Forall2 (wire_bool r1) ins vs -> Forall2 (wire_bool r2) ins vs ->
  uwp r1 r2 (twice_hashed nm1 nm2 ins) (fun o l => Forall2 (wire_bool r1) o (sha256d vs) /\ Forall2 (wire_bool r2) o (sha256d vs) /\ Forall (same r1 r2) l).
Proof.
  intros one1 one2 L8 H1 H2. unfold twice_hashed. do 3 ustep. eapply uwp_mono; [apply (sha_uwp r1 r2 one1 one2 ins vs); auto|].
  cbv beta. intros d l (D1 & D2 & HL). do 2 ustep.
  eapply uwp_mono; [apply (sha_uwp r1 r2 one1 one2 d (sha256 vs)); auto; eapply len8; exact D1|]. cbv beta. intros o l' (O1 & O2 & HL').
  split; [exact O1|]. split; [exact O2|]. apply Forall_app; auto.
Qed.
Lemma top_unique_double wit nm1 nm2 ins s outs s' r1 r2 :
  twice wit (let! d := unwrap_prog (ns nm1 (sha256_r1cs ins)) in unwrap_prog (ns nm2 (sha256_r1cs d))) s outs s' r1 r2 ->
  Forall (fun b => made_of s (bool_lc b 1)) ins ->
  Forall (fun b => feval r1 (bool_lc b 1) = 0 \/ feval r1 (bool_lc b 1) = 1) ins ->
  alike s' r1 r2 /\ Forall (fun b => feval r1 (bool_lc b 1) = feval r2 (bool_lc b 1)) outs.
Proof.
  intros H HM HB. destruct (twice_one _ _ _ _ _ _ _ H) as (one1 & one2 & Ha). pose proof H as (Hr & _).
  destruct (bool_values r1 ins HB) as [vs Hv].
  assert (HD : Forall (UniqueD.det r1 r2) ins) by (eapply Forall_impl; [|exact HM]; intros b Hb; eapply made_of_leq; eauto).
  assert (L8 : (length ins mod 8 = 0)%nat).
  { apply run_split in Hr. destruct Hr as (d & s1 & Hr & _). apply run_unwrap, run_ns_inv in Hr. destruct Hr as (s2 & Hr & _). eapply sha_len; eauto. }
  destruct (twice_uwp _ _ _ _ _ _ _ _ H (double_uwp r1 r2 nm1 nm2 ins vs one1 one2 L8 Hv (wires_move _ _ _ _ HD Hv))) as (l & (H1 & H2 & HL) & K).
  split; [auto|]. eapply F2_same_out; eauto.
Qed.

(** ** The previous hash *)
Lemma word_vars_length k m : length (word_vars m k) = (64 * k)%nat.
Proof.
  unfold word_vars. rewrite flat_map_concat_map. assert (L : length (seq 0 k) = k) by apply seq_length. revert L. generalize (seq 0 k). intros l. revert k.
  induction l as [|j l IH]; intros k L; cbn [map List.concat List.length] in *; [lia|]. rewrite app_length, rev_length, map_length, seq_length, (IH (pred k)) by lia. lia.
Qed.
Lemma word_vars_in m k i : (m <= i < m + 64 * k)%nat -> In (VAux i) (word_vars m k).
Proof.
  intros Hi. unfold word_vars. apply in_flat_map. exists ((i - m) / 64)%nat.
  pose proof (Nat.div_mod (i - m) 64 ltac:(lia)) as D. pose proof (Nat.mod_upper_bound (i - m) 64 ltac:(lia)) as U.
  split.
  - apply in_seq. split; [lia|]. cbn [plus]. apply Nat.div_lt_upper_bound; lia.
  - apply -> in_rev. apply in_map_iff. exists ((i - m) mod 64)%nat. split; [f_equal; lia|]. apply in_seq. lia.
Qed.
Lemma is_vars rho l vs xs : Forall2 (wire_bool rho) l vs -> Forall2 (fun b x => exists v, b = BIs (mkAB x v)) l xs -> Forall2 (fun x v => eqp (rho x) (Z.b2z v)) xs vs.
Proof.
  intros H. revert xs. induction H as [|b v l vs Hb H IH]; intros xs HX; inversion HX as [|? x ? xs' [o ->] HX']; subst; constructor; auto.
  apply wire_is in Hb. exact Hb.
Qed.

Lemma vwp_inputs {A} wit (m : prog A) : forall n Q s a s', vwp n m Q -> run wit m s = (Ok a, s') -> length (st_aux s) = n -> st_in s' = st_in s.
Proof.
  induction m as [a0|e| |inp nm w k IH|nm c k IH|nm k IH|k IH]; intros n Q s a s' H Hr L; cbn [vwp run] in *; try discriminate.
  - injection Hr as _ <-. reflexivity.
  - destruct H as [-> Hk].
    assert (G : forall v, length (st_aux (push_var false nm v s)) = S n) by (intros v; cbn [push_var st_aux]; rewrite app_length, L; cbn [List.length]; lia).
    assert (X : next_var false s = VAux n) by (unfold next_var; now rewrite L). rewrite X in Hr.
    destruct wit; [destruct w; try discriminate|]; (eapply IH in Hr; [rewrite Hr; reflexivity|apply Hk|apply G]).
  - eapply IH in Hr; eauto.
  - eapply IH in Hr; eauto.
  - eapply IH in Hr; eauto.
Qed.

Lemma top_unique_prev wit blk hsh s s' r1 r2 : twice wit (check_prev_hash_r1cs blk hsh) s tt s' r1 r2 ->
  let n := length (st_aux s) in
  Forall (fun x => fmk (r1 x) = fmk (r2 x)) (word_vars (n + 64 * length hsh) (length blk)) ->
  alike_but (skipn 256 (word_vars n (length hsh))) s' r1 r2.
Proof.
  intros (Hr & S1 & S2 & Ha) n HV. unfold check_prev_hash_r1cs in Hr. rewrite prefix_by_run in Hr.
  apply run_split in Hr. destruct Hr as ([h o] & s1 & H1 & H2).
  unfold prefix_by in H1. apply run_split in H1. destruct H1 as (hb & t1 & K1 & H1). apply run_split in H1. destruct H1 as (bb & t2 & K2 & H1).
  pose proof (vwp_run _ _ _ _ _ _ (words_vwp "dummy " hsh (length (st_aux s))) K1) as [N1 V1]. fold n in N1, V1.
  pose proof (vwp_run _ _ _ _ _ _ (words_vwp "dummy2 " blk (length (st_aux t1))) K2) as [N2 V2]. rewrite N1 in N2, V2.
  assert (Eh : h = hb).
  { apply run_split in H1. destruct H1 as (o1 & t3 & _ & H1). apply run_split in H1. destruct H1 as (o2 & t4 & _ & H1). cbn [run] in H1. congruence. }
  subst hb.
  assert (Fh : Forall is_is h) by (clear -V1; induction V1 as [|b x l l' [v ->] H IH]; constructor; auto; exact I).
  destruct (compare_any wit _ 0 s1 (combine_first h o Fh)) as (s2 & R2 & I2 & A2 & T2). unfold compare_bits in H2. cbn [fst snd] in H2. rewrite R2 in H2. injection H2 as <-.
  apply T2 in S1, S2. destruct S1 as [S1 C1]. destruct S2 as [S2 C2]. pose proof (proj1 S1) as one1. pose proof (proj1 S2) as one2.
  assert (M : forall rho A (m : prog A) t a t', run wit m t = (Ok a, t') -> sat rho t' -> sat rho t) by (intros; eapply run_sat; eauto).
  assert (X1 : sat r1 t2) by (eapply M; [exact H1|exact S1]). assert (X2 : sat r2 t2) by (eapply M; [exact H1|exact S2]).
  assert (Y1 : sat r1 t1) by (eapply M; [exact K2|exact X1]). assert (Y2 : sat r2 t1) by (eapply M; [exact K2|exact X2]).
  destruct (swp_run_any _ _ _ _ _ _ _ K1 Y1 (words_swp r1 "dummy " hsh one1)) as [h1 P1].
  destruct (swp_run_any _ _ _ _ _ _ _ K1 Y2 (words_swp r2 "dummy " hsh one2)) as [h2 P2].
  destruct (swp_run_any _ _ _ _ _ _ _ K2 X1 (words_swp r1 "dummy2 " blk one1)) as [b1 B1].
  assert (B2 : Forall2 (wire_bool r2) bb b1).
  { eapply wires_move; [|exact B1]. clear -V2 HV. revert HV. induction V2 as [|b x l xs [v ->] H IH]; intros HV; [constructor|]. inversion HV; subst.
    constructor; auto. apply det_is. cbn [ab_var]. now apply eqp_eq. }
  assert (L2 : (length bb mod 8 = 0)%nat) by (rewrite (Forall2_length _ _ _ V2), word_vars_length; apply mod8_64).
  (* the two hashes *)
  assert (KD : run wit (let! p := twice_hashed (Nm "SHA 256") (Nm "SHA 256d") bb in Ret (h, p)) t2 = (Ok (h, o), s1)).
  { rewrite <- H1. unfold twice_hashed. rewrite run_assoc. reflexivity. }
  assert (U : uwp r1 r2 (let! p := twice_hashed (Nm "SHA 256") (Nm "SHA 256d") bb in Ret (h, p))
     (fun p l => Forall2 (wire_bool r1) (snd p) (sha256d b1) /\ Forall2 (wire_bool r2) (snd p) (sha256d b1) /\ Forall (same r1 r2) l)).
  { ustep. eapply uwp_mono; [apply (double_uwp r1 r2 _ _ bb b1); auto|]. cbv beta. intros p l (O1 & O2 & HL). ustep. cbn [snd]. rewrite app_nil_r. auto. }
  destruct (uwp_run r1 r2 _ _ _ _ _ _ KD S1 S2 U) as (l & (O1 & O2 & HL) & _ & KA). cbn [snd] in O1, O2.
  (* the words of the hash *)
  pose proof (proj1 (combine_prefix r1 _ _ _ _ P1 O1) C1) as E1. pose proof (proj1 (combine_prefix r2 _ _ _ _ P2 O2) C2) as E2.
  assert (LH : length h1 = length h2) by (rewrite <- (Forall2_length _ _ _ P1); apply (Forall2_length _ _ _ P2)).
  rewrite <- LH, <- E1 in E2. unfold sha256d in E2 at 1 2. rewrite !sha256_length in E2.
  pose proof (is_vars _ _ _ _ P1 V1) as Z1. pose proof (is_vars _ _ _ _ P2 V1) as Z2.
  set (F := skipn 256 (word_vars n (length hsh))) in *.
  assert (HF : Forall (same r1 r2) (firstn 256 (word_vars n (length hsh)))).
  { clear -Z1 Z2 E2. revert E2 Z1 Z2. generalize (word_vars n (length hsh)) as xs. generalize 256%nat as k. intros k xs. revert k h1 h2.
    induction xs as [|x xs IH]; intros [|k] h1 h2 E2 Z1 Z2; cbn [firstn]; try apply Forall_nil.
    inversion Z1; subst. inversion Z2; subst. cbn [firstn] in E2. injection E2 as E2 E3. subst. constructor.
    - unfold same. match goal with A : eqp (r1 x) _, B : eqp (r2 x) _ |- _ => rewrite A, B end. reflexivity.
    - eapply IH; eauto. }
  assert (AH : forall x, In x (word_vars n (length hsh)) -> ~ In x F -> same r1 r2 x).
  { intros x Hx Hn. rewrite <- (firstn_skipn 256 (word_vars n (length hsh))) in Hx. apply in_app_iff in Hx. destruct Hx as [Hx|Hx]; [|contradiction].
    rewrite Forall_forall in HF. auto. }
  assert (TI : st_in t2 = st_in s).
  { assert (G : forall pre ws t bs t', run wit (words_to_bits pre ws) t = (Ok bs, t') -> st_in t' = st_in t).
    { clear. intros pre ws t bs t' Hr. exact (vwp_inputs wit _ _ _ _ _ _ (words_vwp pre ws (length (st_aux t))) Hr eq_refl). }
    rewrite (G _ _ _ _ _ K2). eapply G; eauto. }
  assert (AT : alike_but F t2 r1 r2).
  { destruct Ha as [A1 A3]. split; [intros i Hi _; apply A1; rewrite <- TI; exact Hi|].
    intros i Hi Hn. destruct (Nat.lt_ge_cases i n) as [C|C]; [now apply A3|].
    destruct (Nat.lt_ge_cases i (n + 64 * length hsh)) as [D|D].
    - apply eqp_eq, AH; [|exact Hn]. apply word_vars_in. lia.
    - rewrite Forall_forall in HV. apply HV, word_vars_in. lia. }
  assert (AS : alike_but F s1 r1 r2) by (apply KA; [exact AT|eapply Forall_impl; [|exact HL]; auto]).
  destruct AS as [Q1 Q2]. split; [rewrite I2; exact Q1|rewrite A2; exact Q2].
Qed.

(** ** The operations on bits *)
Lemma top_unique_logic wit a b c s o s' r1 r2 :
  twice wit (bool_xor a b) s o s' r1 r2 \/ twice wit (bool_ch a b c) s o s' r1 r2 \/ twice wit (bool_maj a b c) s o s' r1 r2 ->
  made_of s (bool_lc a 1) -> made_of s (bool_lc b 1) -> made_of s (bool_lc c 1) ->
  alike s' r1 r2 /\ feval r1 (bool_lc o 1) = feval r2 (bool_lc o 1).
Proof.
  intros H MA MB MC.
  assert (X : exists m, twice wit m s o s' r1 r2 /\ uwp r1 r2 m (fun r l => UniqueD.det r1 r2 r /\ Forall (same r1 r2) l)).
  { destruct H as [H|[H|H]]; destruct (twice_one _ _ _ _ _ _ _ H) as (one1 & one2 & Ha); pose proof (made_of_leq _ _ _ _ Ha MA) as DA;
      pose proof (made_of_leq _ _ _ _ Ha MB) as DB; pose proof (made_of_leq _ _ _ _ Ha MC) as DC;
      (eexists; split; [exact H|]); [apply xor_uwp|apply ch_uwp|apply maj_uwp]; auto. }
  destruct X as (m & HT & HU). destruct (twice_uwp _ _ _ _ _ _ _ _ HT HU) as (l & [HD HL] & K). split; [auto|].
  unfold feval. apply eqp_eq. exact HD.
Qed.

(** ** Exactly one completion *)
Lemma same_on_alike s r1 r2 r0 : same_on s r1 r0 -> same_on s r2 r0 -> alike s r1 r2.
Proof. intros [H1 H2] [K1 K2]. split; intros n Hn; [rewrite H1, K1|rewrite H2, K2]; auto. Qed.
Lemma top_unique_one wit ins vs s outs s' rho0 : good_for rho0 s -> (64 <= NUM_BITS)%nat ->
  Forall2 (fun b v => carries_for rho0 s (bool_lc b 1) (Z.b2z v)) ins vs -> Forall (fun b => made_of s (bool_lc b 1)) ins ->
  run wit (sha256_r1cs ins) s = (Ok outs, s') ->
  exists rho, same_on s rho rho0 /\ sat rho s' /\ forall rho', same_on s rho' rho0 -> sat rho' s' -> alike s' rho rho'.
Proof.
  intros HG HN HC HM Hr. destruct (top_sha_extends wit ins vs s outs s' rho0 HG HN HC Hr) as (rho & HS & HG' & _).
  assert (Sr : sat rho s') by (apply HG', same_on_refl).
  exists rho. split; [exact HS|]. split; [exact Sr|]. intros rho' HS' Sr'.
  apply (top_unique_hash wit ins s outs s' rho rho'); [|exact HM|].
  - split; [exact Hr|]. split; [exact Sr|]. split; [exact Sr'|]. eapply same_on_alike; eauto.
  - clear -HC HS Sr. induction HC as [|b v ins vs Hb H IH]; constructor; auto.
    rewrite (Hb rho HS (proj1 Sr)). destruct v; cbn [Z.b2z]; auto.
Qed.

(** ** The previous hash binds the block *)
Lemma top_unique_prev_all wit blk hsh s s' r1 r2 : twice wit (check_prev_hash_r1cs blk hsh) s tt s' r1 r2 -> (length hsh <= 4)%nat ->
  let n := length (st_aux s) in
  Forall (fun x => fmk (r1 x) = fmk (r2 x)) (word_vars (n + 64 * length hsh) (length blk)) -> alike s' r1 r2.
Proof.
  intros H HL n HV. pose proof (top_unique_prev wit blk hsh s s' r1 r2 H HV) as [A B].
  rewrite skipn_all2 in A, B by (rewrite word_vars_length; lia). split; intros i Hi; [apply A|apply B]; auto.
Qed.
Lemma b2z_inj a b : Z.b2z a = Z.b2z b -> a = b.
Proof. destruct a, b; cbn; congruence. Qed.
Lemma map_b2z_inj a b : map Z.b2z a = map Z.b2z b -> a = b.
Proof. revert b. induction a as [|x a IH]; intros [|y b] H; cbn [map] in H; try discriminate; auto. injection H as H1 H2. apply b2z_inj in H1. f_equal; auto. Qed.
Lemma feval_lc_var rho x : feval rho (lc_var x) = fmk (rho x).
Proof. unfold feval. now rewrite lc_eval_var. Qed.
Lemma map_vars_eq r1 r2 xs : map (fun x => feval r1 (lc_var x)) xs = map (fun x => feval r2 (lc_var x)) xs <-> Forall (fun x => fmk (r1 x) = fmk (r2 x)) xs.
Proof.
  induction xs as [|x xs IH]; cbn [map]; [split; intros; constructor|]. rewrite !feval_lc_var. split.
  - intros H. injection H as H1 H2. constructor; [exact H1|now apply IH].
  - intros H. inversion H; subst. f_equal; [assumption|now apply IH].
Qed.
Lemma top_unique_binding wit blk hsh s s' r1 r2 : twice wit (check_prev_hash_r1cs blk hsh) s tt s' r1 r2 -> length hsh = 4%nat ->
  let n := length (st_aux s) in
  Forall (fun x => fmk (r1 x) = fmk (r2 x)) (word_vars n 4) ->
  alike s' r1 r2 \/
  exists b1 b2, b1 <> b2 /\ sha256d b1 = sha256d b2 /\
    map (fun x => feval r1 (lc_var x)) (word_vars (n + 256) (length blk)) = map Z.b2z b1 /\
    map (fun x => feval r2 (lc_var x)) (word_vars (n + 256) (length blk)) = map Z.b2z b2.
Proof.
  intros H HL n HV. pose proof H as (Hr & S1 & S2 & _).
  destruct (top_real_prev_sound wit blk hsh s s' r1 Hr S1) as (h1 & b1 & P1 & B1 & Q1).
  destruct (top_real_prev_sound wit blk hsh s s' r2 Hr S2) as (h2 & b2 & P2 & B2 & Q2).
  fold n in P1, B1, P2, B2. rewrite HL in P1, B1, Q1, P2, B2, Q2. change (64 * 4)%nat with 256%nat in *.
  assert (EH : h1 = h2) by (apply map_b2z_inj; rewrite <- P1, <- P2; now apply map_vars_eq). subst h2.
  assert (ED : sha256d b1 = sha256d b2).
  { rewrite Q1 in Q2. rewrite !firstn_all2 in Q2 by (unfold sha256d; rewrite sha256_length; apply Nat.le_refl). exact Q2. }
  destruct (list_eq_dec Bool.bool_dec b1 b2) as [EB|NB]; [left|right; exists b1, b2; auto].
  subst b2. apply (top_unique_prev_all wit blk hsh s s' r1 r2 H); [rewrite HL; apply Nat.le_refl|]. fold n. rewrite HL. change (64 * 4)%nat with 256%nat.
  apply map_vars_eq. rewrite B1, B2. reflexivity.
Qed.

(** ** For the examples: other representatives of the same residues *)
Definition moved (rho : assignment) : assignment := fun v => match v with VIn _ => rho v | VAux _ => rho v + modulus end.
Lemma moved_eqp rho v : eqp (moved rho v) (rho v).
Proof. destruct v; cbn [moved]; [reflexivity|]. exists 1. lia. Qed.
Lemma moved_eval rho l : eqp (lc_eval (moved rho) l) (lc_eval rho l).
Proof.
  induction l as [|[c v] l IH]; [reflexivity|]. cbn [lc_eval]. rewrite IH, (moved_eqp rho v). reflexivity.
Qed.
Lemma moved_sat rho s : sat rho s -> sat (moved rho) s.
Proof.
  intros [H1 H2]. split; [exact H1|]. eapply Forall_impl; [|exact H2]. intros c Hc.
  assert (F : forall l, feval (moved rho) l = feval rho l) by (intros l; unfold feval; apply eqp_eq, moved_eval).
  destruct c as [a b c|ins outs]; cbn [csat] in *.
  - rewrite F, <- Hc. apply eqp_eq. now rewrite !moved_eval.
  - rewrite (map_ext _ _ F outs), Hc. f_equal. f_equal. apply map_ext. intros l. now rewrite F.
Qed.
Lemma moved_alike rho s : alike s rho (moved rho).
Proof. split; intros n _; apply eqp_eq; symmetry; apply moved_eqp. Qed.
Lemma moved_other rho n : rho (VAux n) <> moved rho (VAux n).
Proof. cbn [moved]. pose proof mod_pos. lia. Qed.
End TopUniqueSha.

Lemma alloc_bits_made {E : Env} : forall vs s bs s', run true (alloc_bits vs) s = (Ok bs, s') -> Forall (fun b => made_of s' (bool_lc b 1)) bs /\
  (length (st_aux s) <= length (st_aux s'))%nat.
Proof.
  induction vs as [|v vs IH]; intros s bs s' H; unfold alloc_bits in H; cbn [mapM] in H.
  - cbn [run] in H. injection H as <- <-. auto.
  - apply run_split in H. destruct H as (b & s1 & H1 & H). apply run_split in H. destruct H as (bs1 & s2 & H2 & H). cbn [run] in H. injection H as <- <-.
    destruct (IH _ _ _ H2) as [IH1 IH2]. unfold ab_alloc, alloc, enforce in H1. cbn [bind run] in H1. 
    injection H1 as <- <-. cbn [st_aux push_var push_con next_var] in *. rewrite app_length in IH2. cbn [List.length] in IH2.
    split; [|lia]. constructor; auto. intros c x Hx. cbn [bool_lc ab_var] in Hx. destruct Hx as [Hx|[]]. injection Hx as <- <-. lia.
Qed.

Lemma agree_moves s r0 r : agree s r0 -> same_on s r r0 -> agree s r.
Proof. intros [H1 H2] [K1 K2]. split; intros n Hn; [rewrite K1|rewrite K2]; auto. Qed.
Lemma C103_witness : let E := pallas_env true in exists ins s outs s' r1 r2,
  twice true (sha256_r1cs ins) s outs s' r1 r2 /\ r1 <> r2 /\ length ins = 24%nat /\ Forall2 (boolean_at s) ins (bytes_bits [97; 98; 99]) /\
  good_for r1 s /\ (64 <= NUM_BITS)%nat /\ Forall2 (fun b v => carries_for r1 s (bool_lc b 1) (Z.b2z v)) ins (bytes_bits [97; 98; 99]) /\
  Forall (fun b => made_of s (bool_lc b 1)) ins /\
  Forall (fun b => feval r1 (bool_lc b 1) = 0 \/ feval r1 (bool_lc b 1) = 1) ins.
Proof.
  intros E. pose proof (wf_pallas true : Wf E) as W.
  destruct (alloc_bits_run (bytes_bits [97; 98; 99]) st_init good_init) as (ins & s & Ha & Hg & Hb).
  pose proof (proj1 (alloc_bits_made _ _ _ _ Ha)) as HM.
  assert (HN : (64 <= NUM_BITS)%nat) by (apply Nat.leb_le; vm_compute; reflexivity).
  assert (HL : length ins = 24%nat) by (rewrite (Arith.Forall2_length _ _ _ Hb); reflexivity).
  destruct (top_sha_complete ins (bytes_bits [97; 98; 99]) s Hg HN) as (outs & s' & Hr & Hg' & Ho); auto; [rewrite HL; reflexivity|].
  exists ins, s, outs, s', (asg s'), (moved (asg s')).
  assert (HA : agree s' (asg s')) by apply agree_asg.
  assert (HS : sat (asg s') s') by now apply Hg'.
  assert (HA' : agree s (asg s')) by (eapply run_agree; eauto).
  assert (GF : good_for (asg s') s) by (intros r Hr'; apply Hg; eapply agree_moves; eauto).
  assert (CF : Forall2 (fun b v => carries_for (asg s') s (bool_lc b 1) (Z.b2z v)) ins (bytes_bits [97; 98; 99])).
  { clear -Hb HA'. induction Hb as [|b v ins vs [_ Hc] H IH]; constructor; auto. intros r Hs Ho. apply Hc; auto. eapply agree_moves; eauto. }
  split; [split; [exact Hr|split; [exact HS|split; [now apply moved_sat|apply moved_alike]]]|].
  split; [intros C; apply (moved_other (asg s') 0); now rewrite <- C|].
  split; [exact HL|]. split; [exact Hb|]. split; [exact GF|]. split; [exact HN|]. split; [exact CF|]. split; [exact HM|].
  clear -CF HS. induction CF as [|b v ins vs Hb H IH]; constructor; auto. rewrite (Hb (asg s')); [destruct v; auto|apply same_on_refl|apply HS].
Qed.
Lemma C103_prev_witness : let E := pallas_env true in exists s' r1 r2,
  twice true (check_prev_hash_r1cs block_123456 hash_123456) st_init tt s' r1 r2 /\ r1 <> r2 /\ length hash_123456 = 4%nat /\ length block_123456 = 10%nat /\
  Forall (fun x => fmk (r1 x) = fmk (r2 x)) (word_vars (length (st_aux st_init) + 64 * length hash_123456) (length block_123456)) /\
  Forall (fun x => fmk (r1 x) = fmk (r2 x)) (word_vars (length (st_aux st_init)) 4).
Proof.
  intros E. pose proof (wf_pallas true : Wf E) as W.
  destruct C90_prev_witness as (_ & (s' & Hr & HS) & _). exists s', (asg s'), (moved (asg s')).
  split; [split; [exact Hr|split; [exact HS|split; [now apply moved_sat|apply moved_alike]]]|].
  split; [intros C; apply (moved_other (asg s') 0); now rewrite <- C|]. split; [reflexivity|]. split; [reflexivity|].
  split; apply Forall_forall; intros x _; apply eqp_eq; symmetry; apply moved_eqp.
Qed.
