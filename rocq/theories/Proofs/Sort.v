(** C113: a sorted copy and the median that the circuit enforces. *)
From Coq Require Import ZArith Znumtheory Bool List Permutation Sorting.Sorted Lia ZifyBool ZifyNat.
From Verif.Model Require Import Base CS Bellpepper Util Poly Bignat Gadget Fields F64 Median.
From Verif.Spec Require Import Spec SpecF64 SpecExpr SpecModular SpecExact SpecWide SpecSub SpecOrder SpecSort.
From Verif.Proofs Require Import Field Arith Convert Limbs Wp Lc BitNum PolyP BoolP BignatEq BignatAlloc Group Carry Regroup Mult MultC TopBits TopPoly TopBignat1 PureOps TopPure Owp Pwp MinBits MuxP SubP TopBignat2 TopBignat3 Room TopBignat4 PrimeFields F64P TopF64 ExactP TopExact SubFree DividesP Total TopTotal DecP OutOfRange TopGadget Relation Wide WidePower CheckedSub Residue Congruence Composite MedianP TopMedian Order.
Import ListNotations.
Local Open Scope Z_scope.

Lemma wsel_not {A} x (a b : A) : wsel (negb x) a b = wsel x b a.
Proof. now destruct x. Qed.
Lemma wsel_length x (A B : list Z) : (length (wsel x A B) <= Nat.max (length A) (length B))%nat.
Proof. destruct x; cbn [wsel]; lia. Qed.

Section Sort.
Context {E : Env} {W : Wf E} (HU : usual_field E).

(** What leaves a switch. *)
Definition low (x : bool) (X Y : list Z) : list Z := padded (Nat.max (length X) (length Y)) (wsel x X Y).
Definition high (x : bool) (X Y : list Z) : list Z := padded (Nat.max (length X) (length Y)) (wsel x Y X).
Definition turn (X Y : list Z) : bool := int64 Y <? int64 X.
Fixpoint ins_val (X : list Z) (Ys : list (list Z)) : list (list Z) :=
  match Ys with [] => [X] | Y :: Ys => low (turn X Y) X Y :: ins_val (high (turn X Y) X Y) Ys end.
Fixpoint ins_aux (X : list Z) (Ys : list (list Z)) : list Z :=
  match Ys with [] => [] | Y :: Ys => [Z.b2z (turn X Y)] ++ (low (turn X Y) X Y ++ high (turn X Y) X Y) ++ ins_aux (high (turn X Y) X Y) Ys end.
Fixpoint sort_val (Xs : list (list Z)) : list (list Z) := match Xs with [] => [] | X :: Xs => ins_val X (sort_val Xs) end.
Fixpoint sort_aux (Xs : list (list Z)) : list Z := match Xs with [] => [] | X :: Xs => sort_aux Xs ++ ins_aux X (sort_val Xs) end.

Lemma low_int x X Y : int64 (low x X Y) = int64 (wsel x X Y).
Proof using. apply padded_int. Qed.
Lemma high_int x X Y : int64 (high x X Y) = int64 (wsel x Y X).
Proof using. apply padded_int. Qed.
Lemma turn_low X Y : int64 (low (turn X Y) X Y) = Z.min (int64 X) (int64 Y).
Proof using. rewrite low_int. unfold turn. apply wsel_min. Qed.
Lemma turn_high X Y : int64 (high (turn X Y) X Y) = Z.max (int64 X) (int64 Y).
Proof using. rewrite high_int. unfold turn. destruct (Z.ltb_spec (int64 Y) (int64 X)); cbn [wsel]; lia. Qed.

Lemma ins_perm Ys : forall X, Permutation (map int64 (ins_val X Ys)) (int64 X :: map int64 Ys).
Proof using.
  induction Ys as [|Y Ys IH]; intros X; cbn [ins_val map]; [reflexivity|]. rewrite IH, low_int, high_int.
  destruct (turn X Y); cbn [wsel]; [apply perm_swap|reflexivity].
Qed.
Lemma sort_val_perm Xs : Permutation (map int64 (sort_val Xs)) (map int64 Xs).
Proof using. induction Xs as [|X Xs IH]; cbn [sort_val map]; [reflexivity|]. rewrite ins_perm. now apply perm_skip. Qed.
Lemma ins_sorted Ys : forall X, StronglySorted Z.le (map int64 Ys) -> StronglySorted Z.le (map int64 (ins_val X Ys)).
Proof using.
  induction Ys as [|Y Ys IH]; intros X HS; cbn [ins_val map] in *; [repeat constructor|].
  apply StronglySorted_inv in HS as [HS HF]. constructor; [now apply IH|]. rewrite turn_low.
  apply (Permutation_Forall (Permutation_sym (ins_perm Ys (high (turn X Y) X Y)))). rewrite turn_high. constructor; [lia|].
  eapply Forall_impl; [|exact HF]. cbv beta. intros z Hz. lia.
Qed.
Lemma sort_val_sorted Xs : StronglySorted Z.le (map int64 (sort_val Xs)).
Proof using. induction Xs as [|X Xs IH]; cbn [sort_val map]; [constructor|]. now apply ins_sorted. Qed.

Section Rho.
Variable (rho : assignment) (one : rho ONE = 1).

Lemma mux_shown bt x a b A B : wire_bit rho (b_lc bt) x -> shown rho a A -> shown rho b B -> swp Any rho (mux bt a b) (fun y => shown rho y (low x A B)).
Proof using HU W.
  intros Hx (E1 & N1 & W1 & M1 & D1 & L1) (E2 & N2 & W2 & M2 & D2 & L2). pose proof (ev_length _ _ _ E1) as K1. pose proof (ev_length _ _ _ E2) as K2.
  eapply swp_mono; [apply (mux_swp rho Any bt x a b Hx); congruence|]. cbv beta zeta. rewrite K1, K2, W1. intros y (_ & P1 & P2 & P3).
  assert (EW : wires rho (limbs (wsel x a b)) = wsel x A B) by (destruct x; cbn [wsel]; apply (ev_canon rho); auto; now apply (small_digits HU)).
  rewrite EW in P3. fold (low x A B) in P3. assert (DS : digits (wsel x A B)) by (destruct x; auto).
  assert (LL : length (low x A B) = Nat.max (length A) (length B)) by (apply padded_length, wsel_length).
  split; [rewrite <- P3; apply ev_wires|]. rewrite P1, LL. split; [reflexivity|]. split; [reflexivity|]. split; [reflexivity|]. split; [now apply padded_digits|lia].
Qed.
Lemma mux_ready md bt x a b A B : wire_bit rho (b_lc bt) x -> (md = Honest -> b_val bt = Some x) -> ready rho md a A -> ready rho md b B ->
  awp md rho (mux bt a b) (low x A B) (fun y => ready rho md y (low x A B)).
Proof using HU W.
  intros Hx Hv Ra Rb. pose proof Ra as (I1 & W1 & _ & D1 & L1). pose proof Rb as (I2 & W2 & _ & D2 & L2).
  pose proof (mux_awp rho md bt x a b A B Hx Hv I1 I2 ltac:(congruence)) as K. cbv zeta in K. rewrite W1 in K. fold (low x A B) in K.
  eapply awp_mono; [apply K; intros _; split; [lia|]; split; [apply (nb64 HU)|destruct x; auto]|]. cbv beta. intros y [Iy Py].
  exact (selected_ready rho md x a b A B y Ra Rb Iy Py).
Qed.

Lemma switch_shown bt x a b A B : wire_bit rho (b_lc bt) x -> shown rho a A -> shown rho b B ->
  swp Any rho (switch bt a b) (fun p => shown rho (fst p) (low x A B) /\ shown rho (snd p) (high x A B)).
Proof using HU W one.
  intros Hx Sa Sb. unfold switch. sstep. sstep. eapply swp_mono; [apply (mux_shown bt x a b A B Hx Sa Sb)|]. cbv beta. intros o0 H0.
  sstep. sstep. eapply swp_mono; [apply (mux_shown (bit_not bt) (negb x) a b A B (bit_not_wire rho one bt x Hx) Sa Sb)|]. cbv beta. intros o1 H1.
  sstep. split; [exact H0|]. unfold low in H1. rewrite wsel_not in H1. exact H1.
Qed.
Lemma switch_ready md bt x a b A B : wire_bit rho (b_lc bt) x -> (md = Honest -> b_val bt = Some x) -> ready rho md a A -> ready rho md b B ->
  awp md rho (switch bt a b) (low x A B ++ high x A B) (fun p => ready rho md (fst p) (low x A B) /\ ready rho md (snd p) (high x A B)).
Proof using HU W one.
  intros Hx Hv Ra Rb. unfold switch. apply awp_bind. astep. eapply awp_mono; [apply (mux_ready md bt x a b A B Hx Hv Ra Rb)|]. cbv beta. intros o0 H0.
  assert (EH : low (negb x) A B = high x A B) by (unfold low, high; now rewrite wsel_not). rewrite <- EH.
  eapply awp_bind_eq with (ys1 := low (negb x) A B) (ys2 := []); [now rewrite app_nil_r|]. astep.
  eapply awp_mono; [apply (mux_ready md (bit_not bt) (negb x) a b A B (bit_not_wire rho one bt x Hx)); auto|].
  { intros K. unfold bit_not. cbn [b_val]. now rewrite (Hv K). }
  cbv beta. intros o1 H1. astep. auto.
Qed.

Lemma insert_shown ys Ys : Forall2 (shown rho) ys Ys -> forall x X, shown rho x X ->
  swp Any rho (insert_in x ys) (fun zs => exists Zs, Forall2 (shown rho) zs Zs /\ Permutation (map int64 Zs) (int64 X :: map int64 Ys)).
Proof using HU W one.
  induction 1 as [|y Y ys Ys Hy _ IH]; intros x X Hx; cbn [insert_in].
  - sstep. exists [X]. split; [constructor; auto|reflexivity].
  - sstep. sstep. eapply swp_mono; [apply (bit_alloc_swp rho one Any (hint x y))|]. cbv beta. intros bt [_ (v & Hv & _)].
    sstep. sstep. eapply swp_mono; [apply (switch_shown bt v x y X Y Hv Hx Hy)|]. cbv beta. intros p [P0 P1].
    sstep. sstep. eapply swp_mono; [apply (IH (snd p) (high v X Y) P1)|]. cbv beta. intros r (Zs & HZ & HP).
    sstep. exists (low v X Y :: Zs). split; [constructor; auto|]. cbn [map]. rewrite HP, low_int, high_int. destruct v; cbn [wsel]; [apply perm_swap|reflexivity].
Qed.
Lemma insert_ready md ys Ys : Forall2 (ready rho md) ys Ys -> forall x X, ready rho md x X ->
  awp md rho (insert_in x ys) (ins_aux X Ys) (fun zs => Forall2 (ready rho md) zs (ins_val X Ys)).
Proof using HU W one.
  induction 1 as [|y Y ys Ys Hy _ IH]; intros x X Hx; cbn [insert_in ins_aux ins_val].
  - astep. constructor; auto.
  - apply awp_bind. astep. eapply awp_mono; [apply (bit_alloc_awp rho one md (hint x y) (turn X Y))|].
    { intros ->. unfold hint. destruct Hx as (I1 & W1 & _), Hy as (I2 & W2 & _).
      rewrite (is_bn_value _ _ _ _ I1 eq_refl), (is_bn_value _ _ _ _ I2 eq_refl), W1, W2. reflexivity. }
    cbv beta. intros bt [Vb Hb]. apply awp_bind. astep. eapply awp_mono; [apply (switch_ready md bt (turn X Y) x y X Y Hb)|]; auto.
    { intros ->. rewrite Vb. unfold hint. destruct Hx as (I1 & W1 & _), Hy as (I2 & W2 & _).
      rewrite (is_bn_value _ _ _ _ I1 eq_refl), (is_bn_value _ _ _ _ I2 eq_refl), W1, W2. reflexivity. }
    cbv beta. intros p [P0 P1]. eapply awp_bind_eq with (ys2 := []); [now rewrite app_nil_r|]. astep. eapply awp_mono; [apply (IH (snd p) _ P1)|].
    cbv beta. intros r HR. astep. constructor; auto.
Qed.

Lemma arrange_shown xs Xs : Forall2 (shown rho) xs Xs ->
  swp Any rho (arrange xs) (fun zs => exists Zs, Forall2 (shown rho) zs Zs /\ Permutation (map int64 Zs) (map int64 Xs)).
Proof using HU W one.
  induction 1 as [|x X xs Xs Hx _ IH]; cbn [arrange].
  - sstep. exists []. split; [constructor|reflexivity].
  - sstep. sstep. eapply swp_mono; [apply IH|]. cbv beta. intros ys (Ys & HY & HP).
    sstep. eapply swp_mono; [apply (insert_shown ys Ys HY x X Hx)|]. cbv beta. intros zs (Zs & HZ & HQ). exists Zs. split; [exact HZ|].
    cbn [map]. rewrite HQ. now apply perm_skip.
Qed.
Lemma arrange_ready md xs Xs : Forall2 (ready rho md) xs Xs ->
  awp md rho (arrange xs) (sort_aux Xs) (fun zs => Forall2 (ready rho md) zs (sort_val Xs)).
Proof using HU W one.
  induction 1 as [|x X xs Xs Hx _ IH]; cbn [arrange sort_aux sort_val].
  - astep. constructor.
  - apply awp_bind. astep. eapply awp_mono; [apply IH|]. cbv beta. intros ys HY. astep. now apply insert_ready.
Qed.

Lemma ascend_shown bs Bs : Forall2 (shown rho) bs Bs -> forall i a A, shown rho a A ->
  swp Any rho (ascend i a bs) (fun _ => Sorted Z.le (map int64 (A :: Bs))).
Proof using HU W one.
  induction 1 as [|b B bs Bs Hb HF IH]; intros i a A Ha; cbn [ascend]; sstep; [repeat constructor|].
  sstep. eapply swp_mono; [apply (less_swp HU rho one b a B A Hb Ha)|]. cbv beta. intros _ HL.
  eapply swp_mono; [apply (IH (S i) b B Hb)|]. cbv beta. intros _ HS. cbn [map] in *. constructor; [exact HS|]. constructor. exact HL.
Qed.

Lemma copy_shown xs Xs : Forall2 (shown rho) xs Xs ->
  swp Any rho (sorted_copy xs) (fun zs => exists Zs, Forall2 (shown rho) zs Zs /\ Permutation (map int64 Zs) (map int64 Xs) /\ StronglySorted Z.le (map int64 Zs)).
Proof using HU W one.
  intros HX. unfold sorted_copy. sstep. sstep. eapply swp_mono; [apply (arrange_shown xs Xs HX)|]. cbv beta. intros zs (Zs & HZ & HP).
  sstep. sstep. destruct HZ as [|z Z0 zs Zs Hz HZ]; cbn [ascending].
  - sstep. exists []. split; [constructor|]. split; [exact HP|constructor].
  - eapply swp_mono; [apply (ascend_shown zs Zs HZ 0 z Z0 Hz)|]. cbv beta. intros u HS. sstep. exists (Z0 :: Zs). split; [constructor; auto|]. split; [exact HP|]. now apply sorted_all.
Qed.

Definition chain_aux (Xs : list (list Z)) : list Z := match Xs with [] => [] | X :: Xs => ascend_aux X Xs end.
Definition copy_aux (Xs : list (list Z)) : list Z := sort_aux Xs ++ chain_aux (sort_val Xs) ++ [].
Lemma copy_ready md xs Xs : Forall2 (ready rho md) xs Xs ->
  pwp md rho (sorted_copy xs) (copy_aux Xs) (fun zs => Forall2 (ready rho md) zs (sort_val Xs)).
Proof using HU W one.
  intros HX. unfold sorted_copy, copy_aux. apply pwp_bind, pwp_ns. eapply pwp_mono; [apply awp_pwp, (arrange_ready md xs Xs HX)|]. cbv beta. intros zs HZ.
  apply pwp_bind, pwp_ns. pose proof (proj2 (sorted_all _) (sort_val_sorted Xs)) as HS. pose proof HZ as HZ0. destruct HZ as [|z Z0 zs Zs Hz HZ]; cbn [ascending chain_aux].
  - cbn [pwp]. auto.
  - eapply pwp_mono; [apply (ascend_pwp HU rho one md zs Zs HZ 0 z Z0 Hz HS)|]. intros _ _. cbn [pwp]. auto.
Qed.
Lemma copy_honest xs Xs : Forall2 (ready rho Honest) xs Xs -> hwp rho (sorted_copy xs) (fun zs => Forall2 (ready rho Honest) zs (sort_val Xs)).
Proof using HU W one.
  intros HX. unfold sorted_copy. hstep. hstep. eapply hwp_mono; [eapply hwp_awp; apply (arrange_ready Honest xs Xs HX)|]. cbv beta. intros zs HZ.
  hstep. hstep. pose proof (proj2 (sorted_all _) (sort_val_sorted Xs)) as HS. pose proof HZ as HZ0. destruct HZ as [|z Z0 zs Zs Hz HZ]; cbn [ascending].
  - hstep. exact HZ0.
  - eapply hwp_mono; [apply (ascend_hwp HU rho one zs Zs HZ 0 z Z0 Hz HS)|]. intros _ _. hstep. exact HZ0.
Qed.

Lemma shown_int b B : shown rho b B -> int_of rho b = int64 B /\ wires rho (limbs b) = B /\ digits B.
Proof using HU W.
  intros (E1 & _ & W1 & _ & D1 & _). assert (HW : wires rho (limbs b) = B) by (apply (ev_canon rho); auto; now apply (small_digits HU)).
  unfold int_of. rewrite W1, HW. auto.
Qed.
Lemma shown_ints bs Bs : Forall2 (shown rho) bs Bs -> map (int_of rho) bs = map int64 Bs /\ Forall (fun b => digits (wires rho (limbs b))) bs.
Proof using HU W.
  induction 1 as [|b B bs Bs Hb _ [IH1 IH2]]; cbn [map]; [auto|]. destruct (shown_int b B Hb) as (K1 & K2 & K3).
  split; [congruence|]. constructor; [now rewrite K2|exact IH2].
Qed.
Lemma readies md bs Bs : Forall2 (ready rho md) bs Bs -> Forall2 (shown rho) bs Bs.
Proof using. induction 1; constructor; auto. eapply ready_shown; eauto. Qed.
End Rho.

Lemma sort_sound wit xs Xs s ys s' rho0 rho : good_for rho0 s -> Forall2 (num64 rho0 s) xs Xs -> run wit (sorted_copy xs) s = (Ok ys, s') ->
  same_on s rho rho0 -> sat rho s' ->
  Permutation (map (int_of rho) ys) (map int64 Xs) /\ StronglySorted Z.le (map (int_of rho) ys) /\ Forall (fun y => digits (wires rho (limbs y))) ys.
Proof using HU W.
  intros G HX Hr Hso Hs. pose proof (proj1 Hs) as one. pose proof (ready_for_all HU true _ _ _ _ _ G HX Hso one) as RX.
  destruct (swp_run_any wit rho (sorted_copy xs) s ys s' _ Hr Hs (copy_shown rho one xs Xs (readies rho _ _ _ RX))) as (Zs & HZ & HP & HS).
  destruct (shown_ints rho ys Zs HZ) as [K1 K2]. rewrite K1. auto.
Qed.

Lemma sort_exact wit xs Xs L s ys s' rho0 : good_for rho0 s -> Forall2 (num64 rho0 s) xs Xs -> run wit (sorted_copy xs) s = (Ok ys, s') ->
  (completed s rho0 s' (fun rho => map (int_of rho) ys = L) <-> Permutation L (map int64 Xs) /\ StronglySorted Z.le L).
Proof using HU W.
  intros G HX Hr. split.
  - intros (rho & Hso & Hs & <-). destruct (sort_sound wit xs Xs s ys s' rho0 rho G HX Hr Hso Hs) as (K1 & K2 & _). auto.
  - intros [HP HS]. destruct (pwp_run wit (sorted_copy xs) s rho0 (copy_aux Xs) (fun rho zs => map (int_of rho) zs = map int64 (sort_val Xs)) ys s' G) as (rho & H1 & H2 & H3); [|exact Hr|].
    { intros rho Hso one. eapply pwp_mono; [apply (copy_ready rho one (md_of wit) xs Xs), (ready_for_all HU wit _ _ _ _ _ G HX Hso one)|]. cbv beta.
      intros zs HZ. apply (shown_ints rho), (readies rho (md_of wit)), HZ. }
    exists rho. split; [exact H1|]. split; [apply H2, same_on_refl|]. rewrite (H3 rho (same_on_refl _ _)). apply sorted_perm_eq; auto using sort_val_sorted.
    rewrite HP. symmetry. apply sort_val_perm.
Qed.

Lemma sort_median wit xs Xs s ys s' rho0 rho : good_for rho0 s -> Forall2 (num64 rho0 s) xs Xs -> xs <> [] -> run wit (sorted_copy xs) s = (Ok ys, s') ->
  same_on s rho rho0 -> sat rho s' ->
  exists m, compute_median_timestamp (map int64 Xs) = Ok (m, map (int_of rho) ys) /\ nth_error (map (int_of rho) ys) (length xs / 2) = Some m.
Proof using HU W.
  intros G HX HN Hr Hso Hs. destruct (sort_sound wit xs Xs s ys s' rho0 rho G HX Hr Hso Hs) as (K1 & K2 & _). pose proof (Forall2_length _ _ _ HX) as HL.
  destruct (top_median_ok (map int64 Xs)) as (m & l & M1 & M2 & M3 & M4 & _).
  { intros K. apply map_eq_nil in K. subst Xs. destruct xs; [now apply HN|discriminate]. }
  rewrite map_length, <- HL in M4. assert (EL : l = map (int_of rho) ys) by (apply sorted_perm_eq; auto; now rewrite K1). subst l. exists m. auto.
Qed.

Lemma sort_honest xs Xs s : good s -> Forall2 (num64_at s) xs Xs ->
  exists ys L s', run true (sorted_copy xs) s = (Ok ys, s') /\ good s' /\ map value ys = map Some L /\ Permutation L (map int64 Xs) /\ StronglySorted Z.le L.
Proof using HU W.
  intros G HX. destruct (hwp_run (sorted_copy xs) s (fun rho zs => Forall2 (ready rho Honest) zs (sort_val Xs)) G) as (ys & s' & K1 & K2 & _ & K4).
  { intros rho Hag one. apply (copy_honest rho one), (ready_at_all HU _ _ _ _ G HX Hag one). }
  exists ys, (map int64 (sort_val Xs)), s'. split; [exact K1|]. split; [exact K2|]. split; [|split; [apply sort_val_perm|apply sort_val_sorted]].
  pose proof (K4 _ (agree_asg s')) as HZ. clear -HZ. induction HZ as [|z Z0 zs Zs (I1 & W1 & _) _ IH]; cbn [map]; [reflexivity|]. rewrite IH, (is_bn_value _ _ _ _ I1 eq_refl), W1. reflexivity.
Qed.
End Sort.

Lemma sort_witness : let E := pallas_f64 log2_down true in
  let three x nx y ny z nz := let! ab := (let! a := alloc_from_nat (Ok x) 64 nx in let! b := alloc_from_nat (Ok y) 64 ny in Ret (a, b)) in let! c := alloc_from_nat (Ok z) 64 nz in Ret (ab, c) in
  exists a b c s ys s', run true (three (2 ^ 64 + 3) 2%nat 9 1%nat 4 3%nat) st_init = (Ok (a, b, c), s) /\ good s /\
    run true (sorted_copy [a; b; c]) s = (Ok ys, s') /\ good s' /\ map value ys = [Some 4; Some 9; Some (2 ^ 64 + 3)] /\
    completed s (asg s) s' (fun rho => map (int_of rho) ys = [4; 9; 2 ^ 64 + 3]) /\
    ~ completed s (asg s) s' (fun rho => map (int_of rho) ys = [9; 4; 2 ^ 64 + 3]) /\
    ~ completed s (asg s) s' (fun rho => map (int_of rho) ys = [4; 4; 9]).
Proof.
  intros E three. pose proof (proj1 (usual_pallas log2_down true log2_down_faithful)) as HU. pose proof (wf_pallas_f64 log2_down true) as W. fold E in HU, W.
  destruct (wide_three HU (2 ^ 64 + 3) 2 9 1 4 3) as (a & b & c & A & B & C & s & R & G & NA & NB & NC & LA & LB & LC & VA & VB & VC); try lia.
  assert (HT : Forall2 (num64_at s) [a; b; c] [A; B; C]) by (apply Forall2_cons; [exact NA|apply Forall2_cons; [exact NB|apply Forall2_cons; [exact NC|apply Forall2_nil]]]).
  assert (HF : Forall2 (num64 (asg s) s) [a; b; c] [A; B; C]) by (apply Forall2_cons; [now apply at_num64|apply Forall2_cons; [now apply at_num64|apply Forall2_cons; [now apply at_num64|apply Forall2_nil]]]).
  destruct (sort_honest HU [a; b; c] [A; B; C] s G HT) as (ys & L & s' & H1 & H2 & H3 & H4 & H5).
  pose proof (fun L => sort_exact HU true [a; b; c] [A; B; C] L s ys s' (asg s) (good_good_for s G) HF H1) as K. cbn [map] in H4, K. rewrite VA, VB, VC in H4, K.
  assert (PM : Permutation [4; 9; 2 ^ 64 + 3] [2 ^ 64 + 3; 9; 4]) by exact (Permutation_rev [4; 9; 2 ^ 64 + 3]).
  assert (SM : StronglySorted Z.le [4; 9; 2 ^ 64 + 3]) by (repeat constructor; lia).
  assert (EL : L = [4; 9; 2 ^ 64 + 3]) by (apply sorted_perm_eq; auto; rewrite H4; exact PM). subst L.
  exists a, b, c, s, ys, s'. split; [exact R|]. split; [exact G|]. split; [exact H1|]. split; [exact H2|]. split; [exact H3|]. split; [apply K; split; assumption|]. split.
  - intros N. apply K in N as [_ N]. apply StronglySorted_inv in N as [_ N]. inversion N. lia.
  - intros N. apply K in N as [N _]. apply Permutation_sym in N. apply (Permutation_in (2 ^ 64 + 3)) in N; [cbn [In] in N; lia|now left].
Qed.
