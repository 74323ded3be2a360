(** C112: membership in a table. *)
From Coq Require Import ZArith Znumtheory Bool List Lia ZifyBool ZifyNat.
From Verif.Model Require Import Base CS Bellpepper Util Poly Bignat Gadget Fields F64.
From Verif.Spec Require Import Spec SpecF64 SpecExpr SpecModular SpecExact SpecWide SpecSub SpecOrder SpecTable.
From Verif.Proofs Require Import Field Arith Convert Limbs Wp Lc BitNum PolyP BoolP BignatEq BignatAlloc Group Carry Regroup Mult MultC TopBits TopPoly TopBignat1 PureOps TopPure Owp Pwp MinBits MuxP SubP TopBignat2 TopBignat3 Room TopBignat4 PrimeFields F64P TopF64 ExactP TopExact SubFree DividesP Total TopTotal DecP OutOfRange TestsP TopGadget Relation Wide WidePower CheckedSub Residue Congruence Composite Order.
Import ListNotations.
Local Open Scope Z_scope.

Lemma tree_val_same xs : forall As, Relation.tree_val xs As = TopGadget.tree_val xs As.
Proof. induction xs as [|x xs IH]; intros As; cbn [Relation.tree_val TopGadget.tree_val]; [destruct As; reflexivity|]. now rewrite !IH. Qed.

(** Every position below 2^k has its bits. *)
Lemma index_bits k : forall i, (i < 2 ^ k)%nat -> exists xs, length xs = k /\ tree_index xs = i.
Proof.
  induction k as [|k IH]; intros i Hi; cbn [Nat.pow] in Hi; [exists []; cbn; split; [reflexivity|lia]|].
  destruct (Nat.lt_ge_cases i (2 ^ k)) as [H|H].
  - destruct (IH i H) as (xs & L & V). exists (false :: xs). cbn [length tree_index]. split; [lia|exact V].
  - destruct (IH (i - 2 ^ k)%nat) as (xs & L & V); [lia|]. exists (true :: xs). cbn [length tree_index]. rewrite L, V. split; lia.
Qed.

Section Table.
Context {E : Env} {W : Wf E}.

Section Rho.
Variable (rho : assignment) (one : rho ONE = 1).

Lemma choice_swp md cs : forall i, swp md rho (choice_bits i cs) (fun bits => exists xs, length xs = length cs /\ length bits = length cs /\ Forall2 (fun b x => wire_bit rho (b_lc b) x) bits xs).
Proof using W one.
  induction cs as [|c cs IH]; intros i; cbn [choice_bits].
  - sstep. exists []. auto.
  - sstep. sstep. eapply swp_mono; [apply (bit_alloc_swp rho one md c)|]. cbv beta. intros b [_ (x & Hx & _)].
    sstep. eapply swp_mono; [apply (IH (S i))|]. cbv beta. intros bits (xs & L1 & L2 & HF). sstep. exists (x :: xs). cbn [length]. auto.
Qed.
Lemma choice_pwp md cs : md <> Honest -> forall xs, length xs = length cs -> forall i,
  pwp md rho (choice_bits i cs) (map Z.b2z xs) (fun bits => length bits = length cs /\ Forall2 (fun b x => wire_bit rho (b_lc b) x) bits xs).
Proof using W one.
  intros Hmd. induction cs as [|c cs IH]; intros [|x xs] HL i; try discriminate; cbn [choice_bits map].
  - cbn [pwp]. auto.
  - change (Z.b2z x :: map Z.b2z xs) with ([Z.b2z x] ++ map Z.b2z xs). apply pwp_bind, pwp_ns.
    eapply pwp_mono; [apply awp_pwp, (bit_alloc_awp rho one md c x); intros K; contradiction|]. cbv beta. intros b [_ Hx].
    rewrite <- (app_nil_r (map Z.b2z xs)). apply pwp_bind. eapply pwp_mono; [apply (IH xs); cbn [length] in HL; lia|]. cbv beta. intros bits [L HF].
    cbn [pwp length]. auto.
Qed.
Lemma choice_hwp xs : forall i, hwp rho (choice_bits i (map Some xs)) (fun bits => length bits = length xs /\ Forall2 (fun b x => wire_bit rho (b_lc b) x /\ b_val b = Some x) bits xs).
Proof using W one.
  induction xs as [|x xs IH]; intros i; cbn [choice_bits map].
  - hstep. auto.
  - hstep. hstep. eapply hwp_mono; [apply (bit_alloc_hwp rho one x)|]. cbv beta. intros b [Vx Hx].
    hstep. eapply hwp_mono; [apply (IH (S i))|]. cbv beta. intros bits [L HF]. hstep. cbn [length]. auto.
Qed.
End Rho.

Lemma choice_length cs : forall i, rets (choice_bits i cs) (fun bits => length bits = length cs).
Proof using.
  induction cs as [|c cs IH]; intros i; cbn [choice_bits]; [reflexivity|]. apply rets_skip. intros b.
  apply rets_bind. eapply rets_mono; [apply (IH (S i))|]. cbv beta. intros bits L. cbn [rets length]. now rewrite L.
Qed.
Lemma pick_count wit cs table s out s' : run wit (pick cs table) s = (Ok out, s') -> length table = (2 ^ length cs)%nat.
Proof using.
  intros Hr. refine (rets_run wit (pick cs table) s (fun _ => length table = (2 ^ length cs)%nat) out s' _ Hr). unfold pick.
  apply rets_bind, rets_ns. eapply rets_mono; [apply (choice_length cs 0)|]. cbv beta. intros bits <-. apply rets_ns, mux_tree_count.
Qed.

Lemma table_is wit rho0 s rho table As : good_for rho0 s ->
  Forall2 (fun b A => well_shaped b /\ Forall2 (carries_for rho0 s) (limbs b) A) table As -> same_on s rho rho0 -> rho ONE = 1 ->
  Forall2 (is_bn rho (md_of wit)) table As.
Proof using W. intros G H Hso one. induction H as [|b A table As [H1 H2] _ IH]; constructor; auto. now apply (for_is s rho0 G wit). Qed.

Definition pick_wits (xs : list bool) (As : list (list Z)) : list Z := map Z.b2z xs ++ Relation.tree_wits xs As.
Lemma pick_pwp wit rho (one : rho ONE = 1) cs xs table As : length xs = length cs -> Forall2 (is_bn rho (md_of wit)) table As ->
  pwp (md_of wit) rho (pick cs table) (pick_wits xs As) (fun out => is_bn rho (md_of wit) out (Relation.tree_val xs As)).
Proof using W.
  intros HL HT. unfold pick, pick_wits. apply pwp_bind, pwp_ns. eapply pwp_mono; [apply (choice_pwp rho one (md_of wit) cs (md_of_any wit) xs HL)|].
  cbv beta. intros bits [_ HF]. apply pwp_ns, (mux_tree_pwp rho (md_of wit) (md_of_any wit) bits xs table As HF HT).
Qed.

Lemma pick_reaches wit cs xs table As s out s' rho0 : good_for rho0 s ->
  Forall2 (fun b A => well_shaped b /\ Forall2 (carries_for rho0 s) (limbs b) A) table As -> run wit (pick cs table) s = (Ok out, s') ->
  length xs = length cs ->
  length (limbs out) = list_max (map (@length Z) As) /\
  completed s rho0 s' (fun rho => wires rho (limbs out) = padded (list_max (map (@length Z) As)) (nth (tree_index xs) As [])).
Proof using W.
  intros G HT Hr HL. pose proof (pick_count _ _ _ _ _ _ Hr) as HC. pose proof (Forall2_length _ _ _ HT) as HLT.
  destruct (tree_val_padded xs As) as [T1 T2]; [congruence|]. rewrite <- tree_val_same in T1, T2.
  destruct (extend s rho0 G wit (pick cs table) (pick_wits xs As) (fun rho out => is_bn rho (md_of wit) out (Relation.tree_val xs As)) out s') with (2 := Hr) as (rho & H1 & H2 & H3).
  { intros rho Hso one. apply pick_pwp; auto. now apply (table_is wit rho0 s). }
  destruct H3 as (K1 & _ & _ & K4 & _). split; [rewrite (ev_length _ _ _ K1); exact T2|]. exists rho. split; [exact H1|]. split; [exact H2|]. rewrite <- T1. now apply ev_canon.
Qed.

Lemma pick_sound wit cs table As s out s' rho0 rho : good_for rho0 s ->
  Forall2 (fun b A => well_shaped b /\ Forall2 (carries_for rho0 s) (limbs b) A) table As -> run wit (pick cs table) s = (Ok out, s') ->
  same_on s rho rho0 -> sat rho s' ->
  exists A, In A As /\ wires rho (limbs out) = padded (length (limbs out)) A.
Proof using W.
  intros G HT Hr Hso Hs. pose proof (proj1 Hs) as one. pose proof (Forall2_length _ _ _ HT) as HLT. pose proof (pick_count _ _ _ _ _ _ Hr) as HC.
  set (d := mkBigNat [] None None (params_new 1 0)).
  assert (HB : forall i, (i < length table)%nat -> wires rho (limbs (nth i table d)) = nth i As []).
  { pose proof (table_is wit _ _ _ _ _ G HT Hso one) as HI. clear -HI. induction HI as [|b A table As Hb _ IH]; intros i Hi; cbn [length] in Hi; [lia|].
    destruct i; cbn [nth]; [|apply IH; lia]. destruct Hb as (K1 & _ & _ & K4 & _). now apply ev_canon. }
  assert (HS : Forall (fun i => n_limbs (bparams i) = length (limbs i)) table).
  { clear -HT. induction HT as [|b A table As [[H _] _] _ IH]; constructor; auto. }
  set (Q := fun out : bignat => exists A, In A As /\ wires rho (limbs out) = padded (length (limbs out)) A).
  change (Q out). apply (swp_run_any wit rho (pick cs table) s out s' Q Hr Hs). unfold pick.
  sstep. sstep. eapply swp_mono; [apply (choice_swp rho one Any cs 0)|]. cbv beta. intros bits (xs & L1 & L2 & HF).
  sstep. eapply swp_mono; [apply (mux_tree_swp rho one Any d bits xs table HF HS)|]. cbv beta. intros y (_ & _ & _ & _ & Y).
  pose proof (tree_index_lt xs) as HX. exists (nth (tree_index xs) As []). rewrite L1 in HX. split; [apply nth_In; lia|]. rewrite Y, HB by lia. reflexivity.
Qed.

Lemma pick_exact wit cs table As D s out s' rho0 : good_for rho0 s ->
  Forall2 (fun b A => well_shaped b /\ Forall2 (carries_for rho0 s) (limbs b) A) table As -> run wit (pick cs table) s = (Ok out, s') ->
  (completed s rho0 s' (fun rho => wires rho (limbs out) = D) <->
   exists A, In A As /\ D = padded (list_max (map (@length Z) As)) A).
Proof using W.
  intros G HT Hr. pose proof (pick_count _ _ _ _ _ _ Hr) as HC. pose proof (Forall2_length _ _ _ HT) as HLT.
  destruct (pick_reaches wit cs (repeat false (length cs)) table As s out s' rho0 G HT Hr (repeat_length _ _)) as [HL _]. split.
  - intros (rho & Hso & Hs & <-). rewrite <- HL. exact (pick_sound wit cs table As s out s' rho0 rho G HT Hr Hso Hs).
  - intros (A & HA & ->). apply (In_nth _ _ []) in HA as (i & Hi & <-).
    destruct (index_bits (length cs) i) as (xs & L & <-); [congruence|]. apply (pick_reaches wit cs xs table As s out s' rho0 G HT Hr L).
Qed.

(** ** Membership *)
Context (HU : usual_field E).

Lemma equal_pwp rho (one : rho ONE = 1) md a b :
  (forall i, eqp (lc_eval rho (nth i (limbs a) lc_zero)) (lc_eval rho (nth i (limbs b) lc_zero))) ->
  pwp md rho (equal a b) [] (fun _ => True).
Proof using W.
  intros H. destruct (Nat.eq_dec (limb_width (bparams a)) (limb_width (bparams b))) as [HW|HW].
  - apply awp_pwp, (equal_awp rho md); auto.
  - unfold equal, equal_ge, width_agreement. destruct (Nat.ltb _ _).
    + rewrite (proj2 (Nat.eqb_neq _ _) (fun K => HW (eq_sym K))). exact I.
    + rewrite (proj2 (Nat.eqb_neq _ _) HW). exact I.
Qed.
Lemma num64_nth rho0 s table As : good_for rho0 s -> Forall2 (num64 rho0 s) table As -> forall A, In A As -> digits A.
Proof using HU W.
  intros G H A HA. induction H as [|b B table As Hb _ IH]; [destruct HA|]. destruct HA as [<-|HA]; [|auto]. apply (num64_digits _ _ _ _ G Hb).
Qed.
Lemma num64_table rho0 s table As : Forall2 (num64 rho0 s) table As ->
  Forall2 (fun b A => well_shaped b /\ Forall2 (carries_for rho0 s) (limbs b) A) table As.
Proof using. intros H. induction H as [|b B table As [(H1 & H2 & _) _] _ IH]; constructor; auto. Qed.
Lemma same_digits A B : digits A -> digits B -> (int64 A = int64 B <-> forall i, nth i A 0 = nth i B 0).
Proof using. intros HA HB. apply (value_nth (2 ^ 64)); auto. lia. Qed.

Lemma member_exact wit cs x table X As s u s' rho0 : good_for rho0 s -> num64 rho0 s x X -> Forall2 (num64 rho0 s) table As ->
  run wit (member cs x table) s = (Ok u, s') ->
  (completed s rho0 s' (fun _ => True) <-> In (int64 X) (map int64 As)).
Proof using HU W.
  intros G HX HT Hr. pose proof (num64_table _ _ _ _ HT) as HS. pose proof (num64_nth _ _ _ _ G HT) as HD.
  destruct (num64_digits _ _ _ _ G HX) as (DX & _). pose proof (Forall2_length _ _ _ HT) as HLT.
  pose proof (num64_table _ _ _ _ (Forall2_cons x X HX (Forall2_nil _))) as HX1. inversion HX1 as [|? ? ? ? [SX CX] _]; subst.
  assert (HC : length table = (2 ^ length cs)%nat).
  { refine (rets_run wit (member cs x table) s (fun _ => length table = (2 ^ length cs)%nat) u s' _ Hr). unfold member, pick.
    apply rets_bind, rets_ns, rets_bind, rets_ns. eapply rets_mono; [apply (choice_length cs 0)|]. cbv beta. intros bits <-. apply rets_ns.
    eapply rets_mono; [apply mux_tree_count|]. cbv beta. intros y HY. eapply rets_mono; [apply rets_any|]. intros _ _. exact HY. }
  rewrite in_map_iff. split.
  - intros (rho & Hso & Hs & _). pose proof (proj1 Hs) as one.
    set (d := mkBigNat [] None None (params_new 1 0)). pose proof (table_is true _ _ _ _ _ G HS Hso one) as HI.
    assert (HB : forall i, (i < length table)%nat -> wires rho (limbs (nth i table d)) = nth i As []).
    { clear -HI. induction HI as [|b A table As Hb _ IH]; intros i Hi; cbn [length] in Hi; [lia|].
      destruct i; cbn [nth]; [|apply IH; lia]. destruct Hb as (K1 & _ & _ & K4 & _). now apply ev_canon. }
    assert (HSh : Forall (fun i => n_limbs (bparams i) = length (limbs i)) table).
    { clear -HS. induction HS as [|b A table As [[H _] _] _ IH]; constructor; auto. }
    pose proof (for_is s rho0 G true x X rho SX CX Hso one) as (X1 & _ & _ & X4 & _).
    set (Q := fun _ : unit => exists A, int64 A = int64 X /\ In A As).
    change (Q u). apply (swp_run_any wit rho (member cs x table) s u s' Q Hr Hs). unfold member, pick.
    sstep. sstep. sstep. sstep. eapply swp_mono; [apply (choice_swp rho one Any cs 0)|]. cbv beta. intros bits (xs & L1 & L2 & HF).
    sstep. eapply swp_mono; [apply (mux_tree_swp rho one Any d bits xs table HF HSh)|]. cbv beta. intros y (_ & _ & _ & _ & Y).
    pose proof (tree_index_lt xs) as HXS. rewrite L1 in HXS. rewrite HB in Y by lia.
    assert (HA : In (nth (tree_index xs) As []) As) by (apply nth_In; lia). set (A := nth (tree_index xs) As []) in *.
    sstep. eapply swp_mono; [apply (equal_swp rho Any x y)|]. cbv beta. intros [] HE. exists A. split; [|exact HA].
    rewrite <- (padded_int (length (limbs y)) A), <- Y. pose proof (HD A HA) as DA. symmetry. apply same_digits; [exact DX|rewrite Y; now apply padded_digits|].
    intros i. specialize (HE i). pose proof (ev_wires rho (limbs y)) as EY.
    rewrite (ev_nth rho _ _ i X1), (ev_nth rho _ _ i EY) in HE. apply canon_eqp; auto; apply (nth_range canon); auto using canon_0.
    rewrite Y. apply padded_Forall; [apply canon_0|]. now apply (small_digits HU).
  - intros (A & HV & HA). apply (In_nth _ _ []) in HA as HN. destruct HN as (i & Hi & HN).
    destruct (index_bits (length cs) i) as (xs & L & HX2); [congruence|].
    destruct (tree_val_padded xs As) as [T1 _]; [congruence|]. rewrite <- tree_val_same, HX2, HN in T1.
    destruct (pwp_run wit (member cs x table) s rho0 (pick_wits xs As ++ []) (fun _ _ => True) u s' G) as (rho & H1 & H2 & _); [|exact Hr|].
    { intros rho Hso one. pose proof (for_is s rho0 G wit x X rho SX CX Hso one) as (X1 & _).
      unfold member. apply pwp_bind, pwp_ns. eapply pwp_mono; [apply (pick_pwp wit rho one cs xs table As L (table_is wit _ _ _ _ _ G HS Hso one))|].
      cbv beta. intros y (Y1 & _). rewrite T1 in Y1. apply pwp_ns, (equal_pwp rho one). intros j.
      rewrite (ev_nth rho _ _ j X1), (ev_nth rho _ _ j Y1). rewrite (proj1 (same_digits X (padded (list_max (map (@length Z) As)) A) DX (padded_digits _ A (HD A HA)))); [reflexivity|].
      rewrite padded_int. now symmetry. }
    exists rho. split; [exact H1|]. split; [apply H2, same_on_refl|exact I].
Qed.

Lemma member_verdict xs x table X As s : good s -> num64_at s x X -> Forall2 (num64_at s) table As -> length table = (2 ^ length xs)%nat ->
  exists s', run true (member (map Some xs) x table) s = (Ok tt, s') /\
    (good s' <-> int64 X = int64 (nth (Z.to_nat (bits_value (rev xs))) As [])).
Proof using HU W.
  intros G HX HT HL. pose proof (Forall2_length _ _ _ HT) as HLT. rewrite <- tree_index_bits, Nat2Z.id.
  destruct (tree_val_padded xs As) as [T1 _]; [congruence|].
  destruct (dec_run (member (map Some xs) x table) s (int64 X = int64 (nth (tree_index xs) As [])) (fun _ _ => True) G) as ([] & s' & K1 & _ & K3).
  { intros rho Hag one. pose proof (ready_at HU _ _ _ _ G HX Hag one) as (IX & WX & MX & DX & LX). pose proof (ready_at_all HU _ _ _ _ G HT Hag one) as RT.
    assert (TI : Forall2 (tree_in rho Honest 64) table As).
    { clear -RT. induction RT as [|b B table As (I1 & W1 & M1 & D1 & L1) _ IH]; constructor; auto. split; [exact I1|]. split; [now apply in_word64|]. split; [exact W1|]. split; [exact L1|exact D1]. }
    unfold member. eapply dec_step.
    { apply hwp_ns. unfold pick. hstep. hstep. eapply hwp_mono; [apply (choice_hwp rho one xs 0)|]. cbv beta. intros bits [LB HF].
      hstep. eapply hwp_awp. apply (mux_tree_awp rho one Honest 64 (nb64 HU) bits xs table As); [|exact TI|congruence].
      clear -HF. induction HF as [|b v bits xs [H1 H2] _ IH]; constructor; auto. }
    cbv beta. intros y (IY & _ & WY & _ & DY).
    eapply dec_iff; [|apply dec_ns, (equal_dec rho x y X _ IX IY); [congruence|rewrite WX; exact DX|rewrite WX; exact DY]].
    rewrite WX. change (2 ^ Z.of_nat 64) with (2 ^ 64). fold (int64 X) (int64 (TopGadget.tree_val xs As)). rewrite T1, padded_int. reflexivity. }
  exists s'. split; [exact K1|exact K3].
Qed.
End Table.

Lemma table_witness : let E := pallas_f64 log2_down true in
  let three x nx y ny z nz := let! ab := (let! a := alloc_from_nat (Ok x) 64 nx in let! b := alloc_from_nat (Ok y) 64 ny in Ret (a, b)) in let! c := alloc_from_nat (Ok z) 64 nz in Ret (ab, c) in
  (exists x a b s s1 s2, run true (three 7 1%nat (2 ^ 64 + 3) 2%nat 7 3%nat) st_init = (Ok (x, a, b), s) /\ good s /\
     run true (member [Some true] x [a; b]) s = (Ok tt, s1) /\ good s1 /\
     run true (member [Some false] x [a; b]) s = (Ok tt, s2) /\ ~ good s2 /\ completed s (asg s) s2 (fun _ => True)) /\
  (exists x a b s s', run true (three 8 1%nat (2 ^ 64 + 3) 2%nat 7 3%nat) st_init = (Ok (x, a, b), s) /\ good s /\
     run true (member [Some true] x [a; b]) s = (Ok tt, s') /\ ~ good s' /\ ~ completed s (asg s) s' (fun _ => True)).
Proof.
  intros E three. pose proof (proj1 (usual_pallas log2_down true log2_down_faithful)) as HU. pose proof (wf_pallas_f64 log2_down true) as W. fold E in HU, W. split.
  - destruct (wide_three HU 7 1 (2 ^ 64 + 3) 2 7 3) as (x & a & b & X & A & B & s & R & G & NX & NA & NB & LX & LA & LB & VX & VA & VB); try lia.
    assert (HT : Forall2 (num64_at s) [a; b] [A; B]) by (apply Forall2_cons; [exact NA|apply Forall2_cons; [exact NB|apply Forall2_nil]]).
    assert (HF : Forall2 (num64 (asg s) s) [a; b] [A; B]) by (apply Forall2_cons; [now apply at_num64|apply Forall2_cons; [now apply at_num64|apply Forall2_nil]]).
    destruct (member_verdict HU [true] x [a; b] X [A; B] s G NX HT eq_refl) as (s1 & H1 & H2).
    destruct (member_verdict HU [false] x [a; b] X [A; B] s G NX HT eq_refl) as (s2 & H3 & H4).
    change (nth (Z.to_nat (bits_value (rev [true]))) [A; B] []) with B in H2. change (nth (Z.to_nat (bits_value (rev [false]))) [A; B] []) with A in H4.
    rewrite VX in *. rewrite VB in H2. rewrite VA in H4.
    exists x, a, b, s, s1, s2. split; [exact R|]. split; [exact G|]. split; [exact H1|]. split; [now apply H2|]. split; [exact H3|]. split; [rewrite H4; lia|].
    apply (member_exact HU true [Some false] x [a; b] X [A; B] s tt s2 (asg s) (good_good_for s G) (at_num64 _ _ _ NX) HF H3). cbn [map]. rewrite VX, VA, VB. cbn [In]. auto.
  - destruct (wide_three HU 8 1 (2 ^ 64 + 3) 2 7 3) as (x & a & b & X & A & B & s & R & G & NX & NA & NB & LX & LA & LB & VX & VA & VB); try lia.
    assert (HT : Forall2 (num64_at s) [a; b] [A; B]) by (apply Forall2_cons; [exact NA|apply Forall2_cons; [exact NB|apply Forall2_nil]]).
    assert (HF : Forall2 (num64 (asg s) s) [a; b] [A; B]) by (apply Forall2_cons; [now apply at_num64|apply Forall2_cons; [now apply at_num64|apply Forall2_nil]]).
    destruct (member_verdict HU [true] x [a; b] X [A; B] s G NX HT eq_refl) as (s1 & H1 & H2).
    change (nth (Z.to_nat (bits_value (rev [true]))) [A; B] []) with B in H2. rewrite VX, VB in H2.
    exists x, a, b, s, s1. split; [exact R|]. split; [exact G|]. split; [exact H1|]. split; [rewrite H2; lia|].
    pose proof (member_exact HU true [Some true] x [a; b] X [A; B] s tt s1 (asg s) (good_good_for s G) (at_num64 _ _ _ NX) HF H1) as K.
    intros N. apply K in N. cbn [map In] in N. rewrite VX, VA, VB in N. lia.
Qed.
