(** Which wires the SHA-256 gadget determines (C103): two satisfying assignments compared along one run.
    Sums are compared only when their packed equality is enforced; until then what is known about a word
    is conditional on the equalities that are still outstanding. *)
From Coq Require Import String ZArith Bool List Lia Setoid Morphisms ZifyBool ZifyNat.
From Verif.Model Require Import Base Sha256 CS Bellpepper Util Poly Bignat ShaGadget.
From Verif.Spec Require Import Spec SpecSha SpecUnique.
From Verif.Proofs Require Import Field Arith Convert Limbs Wp Lc BitNum PolyP BoolP Ewp ShaBits ShaP ShaWords ShaAdd ShaLogic ShaInst Unique UniqueG UniqueC UniqueD.
Import ListNotations.
Local Open Scope string_scope.
Local Open Scope Z_scope.
Local Open Scope list_scope.
Notation length := List.length (only parsing).

Section UniqueSha.
Context {E : Env} {W : Wf E}.
Context (r1 r2 : assignment) (one1 : r1 ONE = 1) (one2 : r2 ONE = 1).
Notation uwp := (uwp r1 r2).
Notation same := (same r1 r2).
Notation leq := (leq r1 r2).
Notation det := (det r1 r2).

(** ** Bits *)
Lemma wire_det b v : wire_bool r1 b v -> wire_bool r2 b v -> det b.
Proof. unfold wire_bool, wire_bit, UniqueD.det, Unique.leq. intros -> ->. reflexivity. Qed.

Lemma det_leq b : det b -> eqp (lc_eval r1 (bool_lc b 1)) (lc_eval r2 (bool_lc b 1)).
Proof. auto. Qed.

Lemma ab_xor_uwp a b : same (ab_var a) -> same (ab_var b) -> uwp (ab_xor a b) (fun r l => same (ab_var r) /\ Forall same l).
Proof.
  intros HA HB. unfold ab_xor. do 2 ustep. intros x v. do 2 ustep. intros C1 C2. ustep. cbn [ab_var app].
  repeat (progress lcs_in C1). repeat (progress lcs_in C2). unfold Unique.same in *.
  assert (Hx : eqp (r1 x) (r2 x)).
  { replace (r1 x) with (r1 (ab_var a) + r1 (ab_var b) - (r1 (ab_var a) + r1 (ab_var b) - r1 x)) by ring.
    replace (r2 x) with (r2 (ab_var a) + r2 (ab_var b) - (r2 (ab_var a) + r2 (ab_var b) - r2 x)) by ring.
    rewrite <- C1, <- C2, HA, HB. reflexivity. }
  split; [exact Hx|]. fsame.
Qed.
Lemma xor_uwp a b : det a -> det b -> uwp (bool_xor a b) (fun r l => det r /\ Forall same l).
Proof.
  intros HA HB. destruct (xor_cases a b) as [[-> ->]|[[-> ->]|[[-> ->]|[[-> ->]|[(p & q & -> & -> & ->)|[(p & q & -> & -> & ->)|[(p & q & -> & -> & ->)|(p & q & -> & -> & ->)]]]]]]];
    try (cbn [Unique.uwp]; split; [auto using det_not|apply Forall_nil]);
    rewrite ?det_is, ?(det_neg r1 r2 one1 one2) in HA; rewrite ?det_is, ?(det_neg r1 r2 one1 one2) in HB;
    ustep; (eapply uwp_mono; [apply ab_xor_uwp; eassumption|]); cbv beta; intros r l [H1 H2]; ustep;
    (split; [rewrite ?det_is, ?(det_neg r1 r2 one1 one2); exact H1|fsame]).
Qed.
Lemma ch_general_uwp a b c : det a -> det b -> det c -> uwp (ch_general a b c) (fun r l => det r /\ Forall same l).
Proof.
  intros HA HB HC. unfold ch_general. do 2 ustep. intros x v. do 2 ustep. intros C1 C2. ustep. cbn [app].
  repeat (progress lcs_in C1). repeat (progress lcs_in C2). apply det_leq in HA, HB, HC.
  assert (Hx : same x).
  { unfold Unique.same. replace (r1 x) with (r1 x - lc_eval r1 (bool_lc c 1) + lc_eval r1 (bool_lc c 1)) by ring.
    replace (r2 x) with (r2 x - lc_eval r2 (bool_lc c 1) + lc_eval r2 (bool_lc c 1)) by ring.
    rewrite <- C1, <- C2, HA, HB, HC. reflexivity. }
  split; [apply det_is; exact Hx|]. fsame.
Qed.
Lemma and_not_uwp a b : det a -> det b -> uwp (let! r := bool_and a b in Ret (bool_not r)) (fun r l => det r /\ Forall same l).
Proof.
  intros HA HB. ustep. eapply uwp_mono; [apply and_uwp; auto|]. cbv beta. intros r l [H1 H2]. ustep. split; [auto using det_not|fsame].
Qed.
Lemma ch_uwp a b c : det a -> det b -> det c -> uwp (bool_ch a b c) (fun r l => det r /\ Forall same l).
Proof.
  intros HA HB HC. destruct (ch_cases a b c) as [(u & v & t & -> & -> & -> & ->)|[[-> ->]|[[-> ->]|[[-> ->]|[[-> ->]|[[-> ->]| ->]]]]]].
  - cbn [Unique.uwp]. split; [auto using det_const|apply Forall_nil].
  - cbn [Unique.uwp]. split; [auto|apply Forall_nil].
  - apply and_uwp; auto using det_not.
  - apply and_uwp; auto using det_not.
  - apply and_not_uwp; auto using det_not.
  - apply and_not_uwp; auto using det_not.
  - now apply ch_general_uwp.
Qed.
Lemma maj_general_uwp a b c : det a -> det b -> det c -> uwp (maj_general a b c) (fun r l => det r /\ Forall same l).
Proof.
  intros HA HB HC. unfold maj_general. do 2 ustep. intros x v. do 2 ustep. eapply uwp_mono; [apply and_uwp; auto|]. cbv beta. intros bc l [HD HL].
  do 2 ustep. intros C1 C2. ustep. cbn [app].
  repeat (progress lcs_in C1). repeat (progress lcs_in C2). apply det_leq in HA, HB, HC, HD.
  assert (Hx : same x).
  { unfold Unique.same. replace (r1 x) with (lc_eval r1 (bool_lc bc 1) - (lc_eval r1 (bool_lc bc 1) - r1 x)) by ring.
    replace (r2 x) with (lc_eval r2 (bool_lc bc 1) - (lc_eval r2 (bool_lc bc 1) - r2 x)) by ring.
    rewrite <- C1, <- C2, HA, HB, HC, HD. reflexivity. }
  split; [apply det_is; exact Hx|]. fsame.
Qed.
Lemma maj_uwp a b c : det a -> det b -> det c -> uwp (bool_maj a b c) (fun r l => det r /\ Forall same l).
Proof.
  intros HA HB HC. destruct (maj_cases a b c) as [(u & v & t & -> & -> & -> & ->)|[[-> ->]|[[-> ->]|[[-> ->]|[[-> ->]|[[-> ->]|[[-> ->]| ->]]]]]]].
  - cbn [Unique.uwp]. split; [auto using det_const|apply Forall_nil].
  - apply and_uwp; auto.
  - apply and_uwp; auto.
  - apply and_uwp; auto.
  - apply and_not_uwp; auto using det_not.
  - apply and_not_uwp; auto using det_not.
  - apply and_not_uwp; auto using det_not.
  - now apply maj_general_uwp.
Qed.

(** ** Words, bit by bit *)
Lemma concat_same (bs : list (Boolean * list var)) : Forall (fun b => Forall same (snd b)) bs -> Forall same (List.concat (map snd bs)).
Proof. induction 1; cbn [map List.concat]; [apply Forall_nil|]. apply Forall_app; auto. Qed.
Lemma right_all {A B} (P : B -> Prop) (l : list A) bs : Forall2 (fun _ b => P b) l bs -> Forall P bs.
Proof. induction 1; constructor; auto. Qed.
Lemma zip_uwp nm f a b : (forall x y, det x -> det y -> uwp (f x y) (fun r l => det r /\ Forall same l)) ->
  Forall det a -> Forall det b -> uwp (zip_bits nm f a b) (fun r l => Forall det r /\ Forall same l).
Proof.
  intros Hf HA HB. unfold zip_bits. apply (uwp_mapM _ _ _ (fun _ r l => det r /\ Forall same l)).
  - intros [i [x y]] Hp. cbn [fst snd]. ustep. apply in_combine_r in Hp. rewrite Forall_forall in HA, HB.
    apply Hf; [apply HA; eapply in_combine_l; eauto|apply HB; eapply in_combine_r; eauto].
  - intros bs H. apply right_all in H. split.
    + clear -H. induction H as [|b bs [H1 _] H IH]; cbn [map]; constructor; auto.
    + apply concat_same. eapply Forall_impl; [|exact H]. cbv beta. tauto.
Qed.
Lemma zip3_uwp nm f a b c : (forall x y z, det x -> det y -> det z -> uwp (f x y z) (fun r l => det r /\ Forall same l)) ->
  Forall det a -> Forall det b -> Forall det c -> uwp (zip3_bits nm f a b c) (fun r l => Forall det r /\ Forall same l).
Proof.
  intros Hf HA HB HC. unfold zip3_bits. apply (uwp_mapM _ _ _ (fun _ r l => det r /\ Forall same l)).
  - intros [i [x [y z]]] Hp. cbn [fst snd]. ustep. apply in_combine_r in Hp. rewrite Forall_forall in HA, HB, HC.
    pose proof (in_combine_l _ _ _ _ Hp) as Hx. apply in_combine_r in Hp.
    apply Hf; [now apply HA|apply HB; eapply in_combine_l; eauto|apply HC; eapply in_combine_r; eauto].
  - intros bs H. apply right_all in H. split.
    + clear -H. induction H as [|b bs [H1 _] H IH]; cbn [map]; constructor; auto.
    + apply concat_same. eapply Forall_impl; [|exact H]. cbv beta. tauto.
Qed.
Lemma u_xor_uwp a b : Forall det (u_bits a) -> Forall det (u_bits b) -> uwp (u_xor a b) (fun _ l => Forall same l).
Proof.
  intros HA HB. unfold u_xor. ustep. eapply uwp_mono; [apply zip_uwp; eauto using xor_uwp|]. cbv beta. intros r l [_ H]. ustep. fsame.
Qed.
Lemma u_triop_uwp nm f g a b c : (forall x y z, det x -> det y -> det z -> uwp (f x y z) (fun r l => det r /\ Forall same l)) ->
  Forall det (u_bits a) -> Forall det (u_bits b) -> Forall det (u_bits c) -> uwp (u_triop nm f g a b c) (fun _ l => Forall same l).
Proof.
  intros Hf HA HB HC. unfold u_triop. ustep. eapply uwp_mono; [apply zip3_uwp; eauto|]. cbv beta. intros r l [_ H]. ustep. fsame.
Qed.

(** ** Sums *)
Lemma bits_uwp (f : nat -> option bool) n :
  uwp (mapM (fun i => let! b := ns (Nmi "result bit_gadget " i "") (ab_alloc (f i)) in Ret (BIs b)) (seq 0 n))
    (fun bits l => Forall det bits -> Forall same l).
Proof.
  apply (uwp_mapM _ _ _ (fun _ b l => det b -> Forall same l)).
  - intros i _. unfold ab_alloc. do 4 ustep. intros x v. do 2 ustep. intros _ _. repeat ustep. rewrite det_is. cbn [ab_var app]. intros H. fsame.
  - intros bs H. apply right_all in H. intros HD. apply concat_same. clear -H HD. induction H as [|b bs Hb H IH]; [constructor|].
    cbn [map] in HD. inversion HD; subst. constructor; auto.
Qed.
Lemma mq_acc_none q : uwp (mq_accumulate q) (fun _ l => l = []).
Proof. unfold mq_accumulate. ustep. ustep. intros _ _. now ustep. Qed.
Lemma mq_eq_none q n l r : uwp (mq_enforce_equal q n l r) (fun _ l => l = []).
Proof.
  unfold mq_enforce_equal. ustep. eapply uwp_mono with (Q := fun _ l => l = []).
  - destruct (_ <=? _)%nat; [apply mq_acc_none|]. now ustep.
  - cbv beta. intros q' l' ->. destruct (_ <=? _)%nat; ustep. reflexivity.
Qed.
Lemma mq_drop_none q : uwp (mq_drop q) (fun _ l => l = []).
Proof.
  unfold mq_drop. destruct (_ <? _)%nat; [|now ustep]. ustep. eapply uwp_mono; [apply mq_acc_none|]. cbv beta. intros q' l' ->. now ustep.
Qed.
Lemma bits_value_same bs : forall cs, length bs = length cs -> bits_value bs = bits_value cs -> bs = cs.
Proof.
  induction bs as [|b bs IH]; intros [|c cs] L H; try discriminate; auto. rewrite !bits_value_cons in H.
  assert (b = c) by (destruct b, c; cbn [Z.b2z] in H; auto; lia). subst c. f_equal. apply IH; [cbn in L; congruence|lia].
Qed.
Lemma F2_det bits bs : Forall2 (wire_bool r1) bits bs -> Forall2 (wire_bool r2) bits bs -> Forall det bits.
Proof.
  intros H. induction H as [|b v bits bs H1 H IH]; intros K; [constructor|]. inversion K; subst. constructor; auto. eapply wire_det; eauto.
Qed.
Lemma wd_det bits x : wd (wire_bool r1) bits x -> wd (wire_bool r2) bits x -> Forall det bits.
Proof.
  intros (L & _ & H) (_ & _ & K). apply Forall_forall. intros b Hb. apply (In_nth _ _ bF) in Hb. destruct Hb as (i & Hi & <-).
  rewrite L in Hi. eapply wire_det; eauto.
Qed.

Notation done q := (settled r1 q /\ settled r2 q).
Lemma add_uwp q ops xs ys : packed r1 q -> packed r2 q -> Forall agr ops ->
  Forall2 (fun u x => wd (wire_bool r1) (u_bits u) x) ops xs -> Forall2 (fun u x => wd (wire_bool r2) (u_bits u) x) ops ys ->
  uwp (u_addmany q ops) (fun p l => agr (snd p) /\ packed r1 (fst p) /\ packed r2 (fst p) /\ (done (fst p) -> done q) /\
    (exists x, wd (wire_bool r1) (u_bits (snd p)) x /\ (done (fst p) -> x = w32 (total xs))) /\
    (exists x, wd (wire_bool r2) (u_bits (snd p)) x /\ (done (fst p) -> x = w32 (total ys))) /\
    (done (fst p) -> xs = ys -> Forall same l)).
Proof.
  intros Q1 Q2 Ha H1 H2.
  pose proof (add_swp r1 one1 q ops xs Q1 Ha H1) as S1. pose proof (add_swp r2 one2 q ops ys Q2 Ha H2) as S2.
  eapply uwp_mono; [apply uwp_both; [apply swp_rwp; [apply add_rwp|exact S1]|exact S2|]|].
  instantiate (1 := fun p l => done (fst p) -> xs = ys -> Forall same l).
  - clear S1 S2. pose proof (Forall2_length _ _ _ H1) as Lx.
    destruct (Nat.le_gt_cases 2 (length ops)) as [A|A]; [|rewrite add_crash by lia; exact I].
    destruct (Nat.le_gt_cases (length ops) 10) as [B|B]; [|rewrite add_crash by lia; exact I].
    destruct (Nat.le_gt_cases 64 NUM_BITS) as [C|C]; [|rewrite add_crash by lia; exact I].
    assert (HC : (0 < CAPACITY)%nat) by (unfold CAPACITY; lia).
    destruct (add_cases q ops) as [(vs & G1 & G2 & ->)| ->]; try lia; [cbn [Unique.uwp]; intros; constructor|].
    unfold add_alloc. ustep. eapply uwp_mono; [apply uwp_both; [apply (bits_swp r1 one1)|apply (bits_swp r2 one2)|apply bits_uwp]|].
    cbv beta. intros bits l ((bs & L1 & B1) & (cs & L2 & B2) & HL).
    pose proof (width_range (length ops) ltac:(lia)) as HW. set (n := Z.to_nat _) in *.
    assert (X1 : 0 <= total xs < 2 ^ Z.of_nat n).
    { apply sum_width; [lia|]. apply sum_range. clear -H1. induction H1; constructor; auto. apply H. }
    assert (X2 : 0 <= total ys < 2 ^ Z.of_nat n).
    { apply sum_width; [lia|]. apply sum_range. clear -H2. induction H2; constructor; auto. apply H. }
    ustep. eapply uwp_mono; [apply uwp_both; [apply (mq_eq_swp r1 one1 q n _ _ (total xs) (bits_value bs)); auto|apply (mq_eq_swp r2 one2 q n _ _ (total ys) (bits_value cs)); auto|apply mq_eq_none]|].
    + now apply sum_value.
    + now apply weighted_value.
    + rewrite <- L1. apply bits_value_bound.
    + now apply sum_value.
    + now apply weighted_value.
    + rewrite <- L2. apply bits_value_bound.
    + cbv beta. intros q' l' ((_ & S1) & (_ & S2) & ->). ustep. cbn [fst]. intros [D1 D2] <-. rewrite !app_nil_r. apply HL.
      destruct (S1 D1) as [_ V1]. destruct (S2 D2) as [_ V2]. assert (bs = cs) by (apply bits_value_same; congruence). subst cs. eapply F2_det; eauto.
  - cbv beta. intros p l ((G & P1 & T1 & x & W1 & V1) & (P2 & T2 & y & W2 & V2) & HL).
    split; [exact G|]. split; [exact P1|]. split; [exact P2|]. split; [tauto|]. split; [exists x; tauto|]. split; [exists y; tauto|exact HL].
Qed.

(** ** The whole hash *)
Definition uwpW (A : Type) (S : Prop) (m : prog A) (Q : Prop -> A -> Prop) : Prop :=
  uwp m (fun a l => exists S' : Prop, (S' -> S) /\ (S' -> Forall same l) /\ Q S' a).
Definition uwU (S : Prop) (u : u32) (x : Z) : Prop := uwS r1 S u x /\ uwS r2 S u x.
Definition qiU (S : Prop) (q : meq) : Prop := packed r1 q /\ packed r2 q /\ (done q -> S).

Lemma uwU_det (S : Prop) u x : uwU S u x -> S -> Forall det (u_bits u).
Proof. intros [(_ & y & H1 & E1) (_ & z & H2 & E2)] HS. rewrite (E1 HS) in H1. rewrite (E2 HS) in H2. eapply wd_det; eauto. Qed.

Lemma xor_word rho (one : rho ONE = 1) a b x y : agr a -> agr b -> wd (wire_bool rho) (u_bits a) x -> wd (wire_bool rho) (u_bits b) y ->
  swp Any rho (u_xor a b) (fun r => agr r /\ wd (wire_bool rho) (u_bits r) (Z.lxor x y)).
Proof.
  intros Ga Gb Wa Wb. apply swp_rwp; [now apply agr_xor|].
  unfold u_xor. apply swp_bind. eapply swp_mono; [apply (zip_swp rho (wire_bool rho) bool_xor xorb) with (x := x) (y := y) (z := Z.lxor x y); auto|].
  - intros; now apply xor_swp.
  - apply lxor_range; [apply Wa|apply Wb].
  - intros. apply Z.lxor_spec.
  - intros bits Hb. exact Hb.
Qed.
Lemma triop_word rho (one : rho ONE = 1) nm f g h a b c x y z :
  (forall a b c x y z, wire_bool rho a x -> wire_bool rho b y -> wire_bool rho c z -> swp Any rho (f a b c) (fun r => wire_bool rho r (g x y z))) ->
  (forall x y z, 0 <= x < 2 ^ 32 -> 0 <= y < 2 ^ 32 -> 0 <= z < 2 ^ 32 -> 0 <= h x y z < 2 ^ 32 /\
     forall i, 0 <= i < 32 -> Z.testbit (h x y z) i = g (Z.testbit x i) (Z.testbit y i) (Z.testbit z i)) ->
  (agr a -> agr b -> agr c -> rwp (u_triop nm f h a b c) agr) ->
  agr a -> agr b -> agr c -> wd (wire_bool rho) (u_bits a) x -> wd (wire_bool rho) (u_bits b) y -> wd (wire_bool rho) (u_bits c) z ->
  swp Any rho (u_triop nm f h a b c) (fun r => agr r /\ wd (wire_bool rho) (u_bits r) (h x y z)).
Proof.
  intros Hf Hh Hr Ga Gb Gc Wa Wb Wc. destruct (Hh x y z) as [H1 H2]; [apply Wa|apply Wb|apply Wc|].
  apply swp_rwp; [apply Hr; auto|]. unfold u_triop. apply swp_bind.
  eapply swp_mono; [apply (zip3_swp rho (wire_bool rho) f g) with (x := x) (y := y) (u := z) (z := h x y z); eauto|].
  intros bits Hb. exact Hb.
Qed.

Lemma U_xor (S : Prop) q a b x y : qiU S q -> uwU S a x -> uwU S b y -> uwpW _ S (u_xor a b) (fun S' r => qiU S' q /\ uwU S' r (Z.lxor x y)).
Proof.
  intros Hq HA HB. pose proof (uwU_det _ _ _ HA) as DA. pose proof (uwU_det _ _ _ HB) as DB.
  destruct HA as [(Ga & x1 & A1 & EA1) (_ & x2 & A2 & EA2)]. destruct HB as [(Gb & y1 & B1 & EB1) (_ & y2 & B2 & EB2)].
  eapply uwp_mono; [apply uwp_both; [apply (xor_word r1 one1 a b x1 y1); auto|apply (xor_word r2 one2 a b x2 y2); auto|]|].
  - apply (uwp_imp r1 r2 _ S). intros HS. apply u_xor_uwp; auto.
  - cbv beta. intros r l ((G & W1) & (_ & W2) & HL). exists S. split; [auto|]. split; [exact HL|]. split; [exact Hq|].
    split; (split; [exact G|]); eexists; (split; [eassumption|]); intros HS; f_equal; auto.
Qed.
Lemma U_triop (S : Prop) nm f g h q a b c x y z :
  (forall rho, rho ONE = 1 -> forall a b c x y z, wire_bool rho a x -> wire_bool rho b y -> wire_bool rho c z -> swp Any rho (f a b c) (fun r => wire_bool rho r (g x y z))) ->
  (forall x y z, 0 <= x < 2 ^ 32 -> 0 <= y < 2 ^ 32 -> 0 <= z < 2 ^ 32 -> 0 <= h x y z < 2 ^ 32 /\
     forall i, 0 <= i < 32 -> Z.testbit (h x y z) i = g (Z.testbit x i) (Z.testbit y i) (Z.testbit z i)) ->
  (agr a -> agr b -> agr c -> rwp (u_triop nm f h a b c) agr) ->
  (forall x y z, det x -> det y -> det z -> uwp (f x y z) (fun r l => det r /\ Forall same l)) ->
  qiU S q -> uwU S a x -> uwU S b y -> uwU S c z -> uwpW _ S (u_triop nm f h a b c) (fun S' r => qiU S' q /\ uwU S' r (h x y z)).
Proof.
  intros Hf Hh Hr Hu Hq HA HB HC. pose proof (uwU_det _ _ _ HA) as DA. pose proof (uwU_det _ _ _ HB) as DB. pose proof (uwU_det _ _ _ HC) as DC.
  destruct HA as [(Ga & x1 & A1 & EA1) (_ & x2 & A2 & EA2)]. destruct HB as [(Gb & y1 & B1 & EB1) (_ & y2 & B2 & EB2)].
  destruct HC as [(Gc & z1 & C1 & EC1) (_ & z2 & C2 & EC2)].
  eapply uwp_mono; [apply uwp_both; [apply (triop_word r1 one1 nm f g h a b c x1 y1 z1); auto|apply (triop_word r2 one2 nm f g h a b c x2 y2 z2); auto|]|].
  - apply (uwp_imp r1 r2 _ S). intros HS. apply u_triop_uwp; auto.
  - cbv beta. intros r l ((G & W1) & (_ & W2) & HL). exists S. split; [auto|]. split; [exact HL|]. split; [exact Hq|].
    split; (split; [exact G|]); eexists; (split; [eassumption|]); intros HS; f_equal; auto.
Qed.
Lemma U_add (S : Prop) q us xs : qiU S q -> Forall2 (uwU S) us xs ->
  uwpW _ S (u_addmany q us) (fun S' p => qiU S' (fst p) /\ uwU S' (snd p) (w32 (total xs))).
Proof.
  intros (P1 & P2 & HS) Hu.
  assert (G : Forall agr us /\ (exists ys, Forall2 (fun u y => wd (wire_bool r1) (u_bits u) y) us ys /\ (S -> ys = xs)) /\
              (exists zs, Forall2 (fun u y => wd (wire_bool r2) (u_bits u) y) us zs /\ (S -> zs = xs))).
  { clear -Hu. induction Hu as [|u x us xs [(G & y & Wy & Ey) (_ & z & Wz & Ez)] H (F & (ys & H1 & H2) & (zs & H3 & H4))].
    - split; [constructor|]. split; exists []; auto.
    - split; [constructor; auto|]. split; [exists (y :: ys)|exists (z :: zs)]; (split; [constructor; auto|]); intros HS; f_equal; auto. }
  destruct G as (Ga & (ys & Hy & Ey) & (zs & Hz & Ez)).
  eapply uwp_mono; [apply (add_uwp q us ys zs); auto|]. cbv beta.
  intros p l (G & Q1 & Q2 & HD & (x & Wx & Vx) & (y & Wy & Vy) & HL). exists (done (fst p)).
  split; [auto|]. split; [intros D; apply HL; auto; rewrite Ey, Ez by auto; reflexivity|]. split; [split; [exact Q1|split; [exact Q2|auto]]|].
  split; (split; [exact G|]); eexists; (split; [eassumption|]); intros D; [rewrite (Vx D), Ey by auto|rewrite (Vy D), Ez by auto]; reflexivity.
Qed.

Lemma sha_uwp ins vs : (length ins mod 8 = 0)%nat -> Forall2 (wire_bool r1) ins vs -> Forall2 (wire_bool r2) ins vs ->
  uwp (sha256_r1cs ins) (fun outs l => Forall2 (wire_bool r1) outs (sha256 vs) /\ Forall2 (wire_bool r2) outs (sha256 vs) /\ Forall same l).
Proof.
  intros L8 Hi Hj. assert (HC : (0 < CAPACITY)%nat).
  { pose proof wf_two. unfold CAPACITY, NUM_BITS. cbn [Nat.pred]. assert (1 <= Z.log2 modulus) by (apply Z.log2_le_pow2; lia). lia. }
  assert (PZ : forall (S : Prop), S -> qiU S mq_new) by (intros S HS; split; [now apply packed_zero|split; [now apply packed_zero|auto]]).
  assert (DZ : done mq_new) by (split; unfold settled; reflexivity).
  set (bi := fun b v => wire_bool r1 b v /\ wire_bool r2 b v).
  pose proof (sha_wp Prop (fun S' S => S' -> S) uwpW uwU qiU (fun _ => bi) (fun _ => bi)) as H.
  eapply uwp_mono; [apply (H) with (w := True) (ins := ins) (vs := vs)|]; clear H; auto.
  - intros A S a Q HQ. exists S. auto using Forall_nil.
  - intros A B S m f Q H. unfold uwpW in *. apply uwp_bind. eapply uwp_mono; [exact H|]. intros a l (S' & H1 & H2 & H3). cbv beta in *.
    eapply uwp_mono; [exact H3|]. intros b l' (S2 & H4 & H5 & H6). exists S2. split; [auto|]. split; [|exact H6]. intros HS. apply Forall_app. auto.
  - intros A S m Q Q' H HQ. eapply uwp_mono; [exact H|]. intros a l (S' & H1 & H2 & H3). exists S'. auto.
  - intros A S nm m Q H. now apply uwp_ns.
  - intros S S' u x Hl [(G & y & Wy & Ey) (_ & z & Wz & Ez)]. split; (split; [exact G|]); eexists; (split; [eassumption|]); auto.
  - intros S q c _. split; now apply wire_const.
  - intros; now apply U_xor.
  - intros. apply (U_triop _ _ bool_ch ch_bit Ch); auto; [intros; now apply ch_swp|apply Ch_spec|apply agr_ch|apply ch_uwp].
  - intros. apply (U_triop _ _ bool_maj maj_bit Maj); auto; [intros; now apply maj_swp|apply Maj_spec|apply agr_maj|apply maj_uwp].
  - intros S n u x Hn [(G & y & Wy & Ey) (_ & z & Wz & Ez)].
    split; (split; [now apply agr_rotr|]); eexists; (split; [apply wd_rotr; eassumption|]); intros HS; f_equal; auto.
  - intros S q n u x Hn _ [(G & y & Wy & Ey) (_ & z & Wz & Ez)].
    split; (split; [now apply agr_shr|]); eexists; (split; [apply wd_shr; [now apply wire_const|eassumption|eassumption]|]); intros HS; f_equal; auto.
  - intros S q v _ Hv. split; (split; [now apply agr_const|]); exists v; (split; [|auto]); apply wd_const; auto; intros c; now apply wire_const.
  - intros; now apply U_add.
  - intros S bits ws L H. assert (H1 : Forall2 (wire_bool r1) bits ws /\ Forall2 (wire_bool r2) bits ws).
    { clear -H. induction H as [|b v bits ws [H1 H2] H [I1 I2]]; split; constructor; auto. }
    split; (split; [now apply agr_from|]); exists (bits_to_Z ws); (split; [|auto]); apply wd_from; tauto.
  - intros S q (P1 & P2 & HS). eapply uwp_mono; [apply uwp_both; [now apply (mq_drop_swp r1)|now apply (mq_drop_swp r2)|apply mq_drop_none]|].
    cbv beta. intros t l (S1 & S2 & ->). exists S. split; [auto|]. split; [intros; apply Forall_nil|]. apply PZ. auto.
  - intros S u x (_ & _ & HS) [(G & y & Wy & Ey) (_ & z & Wz & Ez)].
    rewrite (Ey (HS DZ)) in Wy. rewrite (Ez (HS DZ)) in Wz. apply wd_out. destruct Wy as (L & R & H1). destruct Wz as (_ & _ & H2).
    split; [exact L|]. split; [exact R|]. intros i Hi'. split; auto.
  - clear -Hi Hj. revert Hj. induction Hi; intros Hj; inversion Hj; subst; constructor; auto. split; auto.
  - cbv beta. intros outs l (S' & _ & H2 & (_ & _ & HS) & H).
    split; [|split; [|auto]].
    all: try (clear -H; induction H as [|b v outs ws [H1 H2] H IH]; constructor; auto).
Qed.
End UniqueSha.
