(** The SHA-256 gadget's own constraints do not depend on the witness. *)
From Coq Require Import ZArith Bool String List Lia.
From Verif.Model Require Import Base Sha256 CS Bellpepper Util Poly Bignat Gadget Ints Median Difficulty HeaderStep ShaGadget RealHash.
From Verif.Spec Require Import SpecShape.
From Verif.Proofs Require Import ShapeP ShapeG.
Import ListNotations.

Section ShaShape.
Context {E : Env}.

Ltac bnd := eapply sh_bind.
Ltac al := first [apply sh_alloc | unfold alloc, alloc_input; apply sh_alloc].

(** ** Bits *)
Definition cst (l : list Boolean) : bool := forallb is_constant l.
Notation bits2 := (Forall2 same_bool).

Lemma same_const a b : same_bool a b -> is_constant a = is_constant b.
Proof. destruct a, b; cbn; intros; try contradiction; reflexivity. Qed.
Lemma same_cst l1 l2 : bits2 l1 l2 -> cst l1 = cst l2.
Proof. unfold cst. induction 1 as [|a b l1 l2 H _ IH]; cbn; [reflexivity|]. rewrite (same_const _ _ H), IH. reflexivity. Qed.
Lemma g_ab_xor a1 a2 b1 b2 : ab_var a1 = ab_var a2 -> ab_var b1 = ab_var b2 ->
  sh (fun a b => ab_var a = ab_var b) (ab_xor a1 b1) (ab_xor a2 b2).
Proof.
  intros Ha Hb. unfold ab_xor. rewrite Ha, Hb. bnd; [al|]. intros [x v] [y u]; cbn [fst]; intros ->.
  bnd; [apply sh_enforce; reflexivity|]. intros _ _ _. reflexivity.
Qed.
Lemma g_bool_xor a1 a2 b1 b2 : same_bool a1 a2 -> same_bool b1 b2 ->
  sh (fun r1 r2 => same_bool r1 r2 /\ is_constant r1 = is_constant a1 && is_constant b1) (bool_xor a1 b1) (bool_xor a2 b2).
Proof.
  intros Ha Hb.
  destruct a1 as [x1|x1|[|]], a2 as [x2|x2|[|]]; cbn in Ha; try contradiction; try discriminate;
  destruct b1 as [y1|y1|[|]], b2 as [y2|y2|[|]]; cbn in Hb; try contradiction; try discriminate;
    unfold bool_xor; try (cbn; auto; fail);
    (bnd; [apply g_ab_xor; assumption|]; intros r1 r2 Hr; cbn; auto).
Qed.
Lemma g_ch_general a1 a2 b1 b2 c1 c2 : same_bool a1 a2 -> same_bool b1 b2 -> same_bool c1 c2 ->
  sh same_bool (ch_general a1 b1 c1) (ch_general a2 b2 c2).
Proof.
  intros Ha Hb Hc. unfold ch_general. cbv zeta. rewrite (g_bool_lc _ _ _ Ha), (g_bool_lc _ _ _ Hb), (g_bool_lc _ _ _ Hc).
  bnd; [al|]. intros [x v] [y u]; cbn [fst]; intros ->. bnd; [apply sh_enforce; reflexivity|]. intros _ _ _. cbn. reflexivity.
Qed.
Lemma g_maj_general a1 a2 b1 b2 c1 c2 : same_bool a1 a2 -> same_bool b1 b2 -> same_bool c1 c2 ->
  sh same_bool (maj_general a1 b1 c1) (maj_general a2 b2 c2).
Proof.
  intros Ha Hb Hc. unfold maj_general. cbv zeta.
  bnd; [al|]. intros [x v] [y u]; cbn [fst]; intros ->. bnd; [apply sh_ns, g_bool_and; eassumption|]. intros r1 r2 Hr.
  rewrite (g_bool_lc _ _ _ Ha), (g_bool_lc _ _ _ Hb), (g_bool_lc _ _ _ Hc), (g_bool_lc _ _ _ Hr).
  bnd; [apply sh_enforce; reflexivity|]. intros _ _ _. cbn. reflexivity.
Qed.
Lemma g_and_not a1 a2 b1 b2 : same_bool a1 a2 -> same_bool b1 b2 ->
  sh same_bool (let! r := bool_and a1 b1 in Ret (bool_not r)) (let! r := bool_and a2 b2 in Ret (bool_not r)).
Proof. intros Ha Hb. bnd; [apply g_bool_and; eassumption|]. intros. cbn. apply g_bool_not; assumption. Qed.
Ltac cases H := cbn in H; try contradiction; try discriminate H.
Lemma g_bool_ch a1 a2 b1 b2 c1 c2 : same_bool a1 a2 -> same_bool b1 b2 -> same_bool c1 c2 ->
  sh same_bool (bool_ch a1 b1 c1) (bool_ch a2 b2 c2).
Proof.
  intros Ha Hb Hc.
  destruct a1 as [x1|x1|[|]], a2 as [x2|x2|[|]]; cases Ha;
  destruct b1 as [y1|y1|[|]], b2 as [y2|y2|[|]]; cases Hb;
  destruct c1 as [z1|z1|[|]], c2 as [z2|z2|[|]]; cases Hc;
    unfold bool_ch; first [apply g_ch_general; assumption | apply g_and_not; cbn; auto | apply g_bool_and; cbn; auto | cbn; auto].
Qed.
Lemma g_bool_maj a1 a2 b1 b2 c1 c2 : same_bool a1 a2 -> same_bool b1 b2 -> same_bool c1 c2 ->
  sh same_bool (bool_maj a1 b1 c1) (bool_maj a2 b2 c2).
Proof.
  intros Ha Hb Hc.
  destruct a1 as [x1|x1|[|]], a2 as [x2|x2|[|]]; cases Ha;
  destruct b1 as [y1|y1|[|]], b2 as [y2|y2|[|]]; cases Hb;
  destruct c1 as [z1|z1|[|]], c2 as [z2|z2|[|]]; cases Hc;
    unfold bool_maj; first [apply g_maj_general; assumption | apply g_and_not; cbn; auto | apply g_bool_and; cbn; auto | cbn; auto].
Qed.

(** ** Words: the same wires, and the same recorded value under a condition *)
Definition wk (C : Prop) (u1 u2 : u32) : Prop :=
  bits2 (u_bits u1) (u_bits u2) /\ List.length (u_bits u1) = 32%nat /\ (C -> u_val u1 = u_val u2 /\ u_val u1 <> None).
Notation ucst u := (cst (u_bits u) = true).
Definition su (u1 u2 : u32) : Prop := wk (ucst u1) u1 u2.

Lemma wk_mono (C C' : Prop) u1 u2 : (C' -> C) -> wk C u1 u2 -> wk C' u1 u2.
Proof. intros H (A & B & D). split; [exact A|]. split; auto. Qed.
Lemma option_map_same {A B} (f : A -> B) (x y : option A) : x = y /\ x <> None -> option_map f x = option_map f y /\ option_map f x <> None.
Proof. intros [<- H]. split; [reflexivity|]. destruct x; cbn; congruence. Qed.
Lemma cst_app l1 l2 : cst (l1 ++ l2) = cst l1 && cst l2.
Proof. apply forallb_app. Qed.
Lemma rot_bits k (l : list Boolean) : (k <= 32)%nat -> List.length l = 32%nat ->
  firstn 32 (skipn k l ++ l) = skipn k l ++ firstn k l.
Proof.
  intros Hk Hl. rewrite firstn_app, firstn_all2 by (rewrite skipn_length; lia).
  rewrite skipn_length, Hl. replace (32 - (32 - k))%nat with k by lia. reflexivity.
Qed.
Lemma rotr_cst k u : (k <= 32)%nat -> List.length (u_bits u) = 32%nat -> cst (u_bits (u_rotr k u)) = cst (u_bits u).
Proof.
  intros Hk Hl. unfold u_rotr. cbn [u_bits]. rewrite rot_bits by assumption.
  rewrite cst_app, andb_comm, <- cst_app, firstn_skipn. reflexivity.
Qed.
Lemma g_rotr C k u1 u2 : (k <= 32)%nat -> wk C u1 u2 -> wk C (u_rotr k u1) (u_rotr k u2).
Proof.
  intros Hk (A & B & D). split; [|split].
  - unfold u_rotr; cbn [u_bits]. apply F2_firstn, Forall2_app; [apply F2_skipn, A|exact A].
  - unfold u_rotr; cbn [u_bits]. rewrite rot_bits by assumption. rewrite app_length, skipn_length, firstn_length. lia.
  - intro c. cbn [u_val u_rotr]. apply option_map_same, D, c.
Qed.
Lemma g_shr C k u1 u2 : (k <= 32)%nat -> wk C u1 u2 -> wk C (u_shr k u1) (u_shr k u2).
Proof.
  intros Hk (A & B & D). split; [|split].
  - unfold u_shr; cbn [u_bits]. apply F2_firstn, Forall2_app; [apply F2_skipn, A|].
    clear. induction k; cbn; constructor; auto. reflexivity.
  - unfold u_shr; cbn [u_bits]. rewrite firstn_length, app_length, skipn_length, repeat_length. lia.
  - intro c. cbn [u_val u_shr]. apply option_map_same, D, c.
Qed.

Lemma g_zip a1 b1 : forall nm k a2 b2, bits2 a1 a2 -> bits2 b1 b2 -> List.length a1 = List.length b1 ->
  sh (fun r1 r2 => bits2 r1 r2 /\ List.length r1 = List.length a1 /\ cst r1 = cst a1 && cst b1)
    (mapM (fun p => ns (Nmi nm (fst p) "") (bool_xor (fst (snd p)) (snd (snd p)))) (combine (seq k (List.length a1)) (combine a1 b1)))
    (mapM (fun p => ns (Nmi nm (fst p) "") (bool_xor (fst (snd p)) (snd (snd p)))) (combine (seq k (List.length a2)) (combine a2 b2))).
Proof.
  revert b1. induction a1 as [|x1 a1 IH]; intros b1 nm k a2 b2 Ha Hb L.
  - destruct b1; [|discriminate L]. inversion Ha; subst. inversion Hb; subst. cbn. auto.
  - destruct b1 as [|y1 b1]; [discriminate L|]. inversion Ha as [|? x2 ? a2' Hx Ha']; subst. inversion Hb as [|? y2 ? b2' Hy Hb']; subst.
    cbn [List.length seq combine mapM]. bnd; [apply sh_ns, g_bool_xor; eassumption|]. cbn [fst snd]. intros r1 r2 [Hr Hc].
    bnd; [apply (IH b1 nm (S k) a2' b2' Ha' Hb'); cbn in L; lia|]. intros l1 l2 (H1 & H2 & H3). cbn [sh].
    split; [constructor; assumption|]. split; [cbn; congruence|].
    change (is_constant r1 && cst l1 = (is_constant x1 && cst a1) && (is_constant y1 && cst b1)). rewrite Hc, H3.
    destruct (is_constant x1), (cst a1), (is_constant y1), (cst b1); reflexivity.
Qed.
Lemma g_xor C a1 a2 b1 b2 : wk C a1 a2 -> wk C b1 b2 ->
  sh (fun r1 r2 => wk C r1 r2 /\ cst (u_bits r1) = cst (u_bits a1) && cst (u_bits b1)) (u_xor a1 b1) (u_xor a2 b2).
Proof.
  intros (A1 & A2 & A3) (B1 & B2 & B3). unfold u_xor, zip_bits.
  bnd; [apply g_zip; [eassumption|eassumption|congruence]|]. intros r1 r2 (R1 & R2 & R3). cbn [sh u_bits]. split; [|exact R3].
  split; [exact R1|]. split; [cbn [u_bits]; congruence|]. intro c. destruct (A3 c) as [<- a]. destruct (B3 c) as [<- b]. cbn [u_val].
  split; [reflexivity|]. destruct (u_val a1), (u_val b1); congruence.
Qed.
Lemma g_zip3 (f : Boolean -> Boolean -> Boolean -> prog Boolean)
  (Hf : forall a1 a2 b1 b2 c1 c2, same_bool a1 a2 -> same_bool b1 b2 -> same_bool c1 c2 -> sh same_bool (f a1 b1 c1) (f a2 b2 c2))
  a1 : forall b1 c1 nm k a2 b2 c2, bits2 a1 a2 -> bits2 b1 b2 -> bits2 c1 c2 ->
  List.length a1 = List.length b1 -> List.length a1 = List.length c1 ->
  sh (fun r1 r2 => bits2 r1 r2 /\ List.length r1 = List.length a1)
    (mapM (fun p => ns (Nmi nm (fst p) "") (f (fst (snd p)) (fst (snd (snd p))) (snd (snd (snd p))))) (combine (seq k (List.length a1)) (combine a1 (combine b1 c1))))
    (mapM (fun p => ns (Nmi nm (fst p) "") (f (fst (snd p)) (fst (snd (snd p))) (snd (snd (snd p))))) (combine (seq k (List.length a2)) (combine a2 (combine b2 c2)))).
Proof.
  induction a1 as [|x1 a1 IH]; intros b1 c1 nm k a2 b2 c2 Ha Hb Hc L L'.
  - destruct b1; [|discriminate L]. destruct c1; [|discriminate L']. inversion Ha; subst. inversion Hb; subst. inversion Hc; subst. cbn. auto.
  - destruct b1 as [|y1 b1]; [discriminate L|]. destruct c1 as [|z1 c1]; [discriminate L'|].
    inversion Ha as [|? x2 ? a2' Hx Ha']; subst. inversion Hb as [|? y2 ? b2' Hy Hb']; subst. inversion Hc as [|? z2 ? c2' Hz Hc']; subst.
    cbn [List.length seq combine mapM]. bnd; [apply sh_ns, Hf; eassumption|]. intros r1 r2 Hr.
    bnd; [apply (IH b1 c1 nm (S k) a2' b2' c2' Ha' Hb' Hc'); cbn in L, L'; lia|]. intros l1 l2 (H1 & H2). cbn [sh].
    split; [constructor; assumption|]. cbn; congruence.
Qed.
Lemma g_triop C nm f g a1 a2 b1 b2 c1 c2
  (Hf : forall a1 a2 b1 b2 c1 c2, same_bool a1 a2 -> same_bool b1 b2 -> same_bool c1 c2 -> sh same_bool (f a1 b1 c1) (f a2 b2 c2)) :
  wk C a1 a2 -> wk C b1 b2 -> wk C c1 c2 -> sh (wk C) (u_triop nm f g a1 b1 c1) (u_triop nm f g a2 b2 c2).
Proof.
  intros (A1 & A2 & A3) (B1 & B2 & B3) (D1 & D2 & D3). unfold u_triop, zip3_bits.
  bnd; [apply (g_zip3 f Hf); [eassumption|eassumption|eassumption|congruence|congruence]|]. intros r1 r2 (R1 & R2). cbn [sh].
  split; [exact R1|]. split; [cbn [u_bits]; congruence|]. intro c. destruct (A3 c) as [<- a]. destruct (B3 c) as [<- b]. destruct (D3 c) as [<- d].
  cbn [u_val]. split; [reflexivity|]. destruct (u_val a1), (u_val b1), (u_val c1); congruence.
Qed.
Definition g_ch C a1 a2 b1 b2 c1 c2 := g_triop C "ch " bool_ch Ch a1 a2 b1 b2 c1 c2 g_bool_ch.
Definition g_maj C a1 a2 b1 b2 c1 c2 := g_triop C "maj " bool_maj Maj a1 a2 b1 b2 c1 c2 g_bool_maj.

Lemma su_constant C v : wk C (u_constant v) (u_constant v).
Proof.
  split; [|split; [unfold u_constant; cbn [u_bits]; rewrite map_length, seq_length; reflexivity|split; [reflexivity|discriminate]]].
  unfold u_constant; cbn [u_bits]. generalize (seq 0 32). intro l. induction l; cbn; constructor; auto. reflexivity.
Qed.
Lemma constant_cst v : ucst (u_constant v).
Proof. unfold u_constant, cst; cbn [u_bits]. generalize (seq 0 32). intro l. induction l; cbn; auto. Qed.

(** ** Sums *)
Lemma g_accumulate q : sh eq (mq_accumulate q) (mq_accumulate q).
Proof. unfold mq_accumulate. bnd; [apply sh_enforce; reflexivity|]. intros _ _ _. cbn. reflexivity. Qed.
Lemma g_meq q n l1 r1 l2 r2 : l1 = l2 -> r1 = r2 -> sh eq (mq_enforce_equal q n l1 r1) (mq_enforce_equal q n l2 r2).
Proof.
  intros -> ->. unfold mq_enforce_equal.
  eapply sh_bind with (R := eq); [destruct (_ <=? _)%nat; [apply g_accumulate|cbn; reflexivity]|]. intros q1 q2 <-.
  destruct (_ <=? _)%nat; [exact I|]. cbn. reflexivity.
Qed.
Lemma g_drop q : sh any (mq_drop q) (mq_drop q).
Proof. unfold mq_drop. destruct (_ <? _)%nat; [|exact I]. bnd; [apply g_accumulate|]. intros. exact I. Qed.
Lemma g_weighted l1 l2 : bits2 l1 l2 -> weighted l1 = weighted l2.
Proof.
  intros H. unfold weighted. rewrite <- (F2_len _ _ _ H). apply F2_flat.
  eapply F2_mono; [|apply F2_seq; [exact H|reflexivity]]. intros [i a] [j b]; cbn [fst snd]. intros [-> Hab]. apply g_bool_lc, Hab.
Qed.
Definition ocst (ops : list u32) : bool := forallb (fun u => cst (u_bits u)) ops.
Lemma same_ocst C o1 o2 : Forall2 (wk C) o1 o2 -> ocst o1 = ocst o2.
Proof. unfold ocst. induction 1 as [|a b l1 l2 (H & _) _ IH]; cbn; [reflexivity|]. rewrite (same_cst _ _ H), IH. reflexivity. Qed.
Lemma all_some_cons {A} (x : A) m1 m2 : all_some m1 = all_some m2 -> all_some m1 <> None ->
  all_some (Some x :: m1) = all_some (Some x :: m2) /\ all_some (Some x :: m1) <> None.
Proof.
  intros H1 H2. assert (K : forall m, all_some (Some x :: m) = match all_some m with Some l => Some (x :: l) | None => None end) by reflexivity.
  rewrite !K, <- H1. destruct (all_some m1); [|congruence]. split; [reflexivity|discriminate].
Qed.
Lemma same_vals (C : Prop) o1 o2 : Forall2 (wk C) o1 o2 -> C -> all_some (map u_val o1) = all_some (map u_val o2) /\ all_some (map u_val o1) <> None.
Proof.
  intros H c. induction H as [|a b l1 l2 (_ & _ & H) _ [IH1 IH2]]; [split; [reflexivity|discriminate]|].
  destruct (H c) as [Hu Hv]. change (map u_val (a :: l1)) with (u_val a :: map u_val l1). change (map u_val (b :: l2)) with (u_val b :: map u_val l2).
  rewrite <- Hu. destruct (u_val a) as [x|]; [|congruence]. clear -IH1 IH2. revert IH1 IH2.
  generalize (map u_val l1) (map u_val l2). intros m1 m2 IH1 IH2. apply all_some_cons; assumption.
Qed.
Lemma g_addmany (C : Prop) q o1 o2 : Forall2 (wk C) o1 o2 -> (ocst o1 = true -> C) ->
  sh (fun p1 p2 => fst p1 = fst p2 /\ su (snd p1) (snd p2) /\ cst (u_bits (snd p1)) = ocst o1) (u_addmany q o1) (u_addmany q o2).
Proof.
  intros HO HC. unfold u_addmany. rewrite <- (F2_len _ _ _ HO).
  destruct (NUM_BITS <? 64)%nat; [exact I|]. destruct (List.length o1 <? 2)%nat eqn:L2; [exact I|].
  destruct (10 <? List.length o1)%nat eqn:L10; [exact I|]. cbv zeta.
  change (forallb (fun u => forallb is_constant (u_bits u)) o1) with (ocst o1).
  change (forallb (fun u => forallb is_constant (u_bits u)) o2) with (ocst o2). rewrite <- (same_ocst _ _ _ HO).
  apply Nat.ltb_ge in L2, L10.
  set (n := Z.to_nat (Z.log2 (Z.of_nat (List.length o1) * 4294967295) + 1)).
  assert (Hn : (32 <= n)%nat).
  { assert (31 <= Z.log2 (Z.of_nat (List.length o1) * 4294967295))%Z; [|subst n; lia]. 
    change 31%Z with (Z.log2 4294967295). apply Z.log2_le_mono. lia. }
  assert (K : forall (R : (meq * u32) -> (meq * u32) -> Prop) v1 v2 w1 w2, ocst o1 = false ->
     sh (fun p1 p2 => fst p1 = fst p2 /\ su (snd p1) (snd p2) /\ cst (u_bits (snd p1)) = ocst o1)
      (let! bits := mapM (fun i => let! b := ns (Nmi "result bit_gadget " i "") (ab_alloc (option_map (fun v => Z.testbit v (Z.of_nat i)) v1)) in Ret (BIs b)) (seq 0 n) in
       let! q := mq_enforce_equal q n (flat_map (fun u => weighted (u_bits u)) o1) (weighted bits) in Ret (q, mkU32 (firstn 32 bits) w1))
      (let! bits := mapM (fun i => let! b := ns (Nmi "result bit_gadget " i "") (ab_alloc (option_map (fun v => Z.testbit v (Z.of_nat i)) v2)) in Ret (BIs b)) (seq 0 n) in
       let! q := mq_enforce_equal q n (flat_map (fun u => weighted (u_bits u)) o2) (weighted bits) in Ret (q, mkU32 (firstn 32 bits) w2))).
  { intros _ v1 v2 w1 w2 HF.
    assert (M : forall k m, sh (fun r1 r2 => bits2 r1 r2 /\ List.length r1 = m /\ Forall (fun b => is_constant b = false) r1)
      (mapM (fun i => let! b := ns (Nmi "result bit_gadget " i "") (ab_alloc (option_map (fun v => Z.testbit v (Z.of_nat i)) v1)) in Ret (BIs b)) (seq k m))
      (mapM (fun i => let! b := ns (Nmi "result bit_gadget " i "") (ab_alloc (option_map (fun v => Z.testbit v (Z.of_nat i)) v2)) in Ret (BIs b)) (seq k m))).
    { intros k m. revert k. induction m as [|m IH]; intro k; cbn [seq mapM]; [cbn; auto|].
      eapply sh_bind with (R := fun a b => same_bool a b /\ is_constant a = false).
      - bnd; [apply sh_ns, g_ab_alloc|]. intros a b Hab. cbn. auto.
      - intros a b [Hab Hc]. bnd; [apply IH|]. intros l1 l2 (M1 & M2 & M3). cbn [sh]. split; [constructor; assumption|]. split; [cbn; congruence|constructor; assumption]. }
    bnd; [apply M|]. intros b1 b2 (M1 & M2 & M3). bnd; [apply g_meq; [|apply g_weighted, M1]|].
    - apply F2_flat. eapply F2_mono; [|exact HO]. intros a b (H & _). apply g_weighted, H.
    - intros q1 q2 <-. cbn [sh fst snd]. split; [reflexivity|]. rewrite HF.
      assert (Z : cst (firstn 32 b1) = false).
      { destruct b1 as [|x b1]; [cbn in M2; lia|]. inversion M3; subst. cbn. rewrite H1. reflexivity. }
      cbn [u_bits]. split; [|exact Z]. split; [|split].
      + cbn [u_bits]. apply F2_firstn, M1.
      + cbn [u_bits]. rewrite firstn_length. lia.
      + cbn [u_bits]. intro c. congruence. }
  destruct (ocst o1) eqn:EO; [|apply (K (fun _ _ => True)); reflexivity].
  destruct (same_vals C _ _ HO (HC eq_refl)) as [HV HN]. rewrite <- HV.
  destruct (all_some (map u_val o1)) as [vs|]; [|congruence]. cbn [option_map sh fst snd].
  split; [reflexivity|]. split; [apply su_constant|]. apply constant_cst.
Qed.

(** ** The message schedule *)
Ltac k32 := lia.
Ltac f2 := repeat apply Forall2_cons; try apply Forall2_nil.
Lemma su_wk u1 u2 : su u1 u2 -> wk (ucst u1) u1 u2.
Proof. auto. Qed.
Lemma g_extend i q1 w1 q2 w2 : q1 = q2 -> Forall2 su w1 w2 ->
  sh (fun p1 p2 => fst p1 = fst p2 /\ Forall2 su (snd p1) (snd p2)) (w_extend (q1, w1) i) (w_extend (q2, w2) i).
Proof.
  intros <- Hw. unfold w_extend. apply sh_ns.
  bnd; [apply sh_lift, so_idx, Hw|]. intros a1 a2 Ha.
  bnd; [apply sh_ns, g_xor; apply g_rotr; [k32|exact Ha|k32|exact Ha]|]. intros s1 s2 [Hs Cs].
  bnd; [apply sh_ns, g_xor; [exact Hs|apply g_shr; [k32|exact Ha]]|]. intros t1 t2 [Ht Ct].
  bnd; [apply sh_lift, so_idx, Hw|]. intros b1 b2 Hb.
  bnd; [apply sh_ns, g_xor; apply g_rotr; [k32|exact Hb|k32|exact Hb]|]. intros u1 u2 [Hu Cu].
  bnd; [apply sh_ns, g_xor; [exact Hu|apply g_shr; [k32|exact Hb]]|]. intros v1 v2 [Hv Cv].
  bnd; [apply sh_lift, so_idx, Hw|]. intros c1 c2 Hc.
  bnd; [apply sh_lift, so_idx, Hw|]. intros d1 d2 Hd.
  bnd; [apply sh_ns, g_addmany with (C := ucst a1 /\ ucst b1 /\ ucst c1 /\ ucst d1)|].
  - f2; (eapply wk_mono; [|eassumption]); tauto.
  - unfold ocst; cbn [forallb]. rewrite Ct, Cs, Cv, Cu, !rotr_cst by (try k32; first [apply Ha | apply Hb]).
    intros H. repeat (apply andb_prop in H as [H ?]).
    repeat match goal with H : _ && _ = true |- _ => apply andb_prop in H as [? ?] end. auto.
  - intros [p1 r1] [p2 r2] (H1 & H2 & _). cbn [fst snd] in *. cbn [sh fst snd]. split; [exact H1|]. apply Forall2_app; auto.
Qed.

(** ** Rounds *)
Definition mc (m : maybe) : bool := match m with Deferred us => ocst us | Concrete u => cst (u_bits u) end.
Definition sm (G : Prop) (m1 m2 : maybe) : Prop :=
  match m1, m2 with
  | Deferred o1, Deferred o2 => exists C : Prop, Forall2 (wk C) o1 o2 /\ (ocst o1 = true -> C /\ G)
  | Concrete u1, Concrete u2 => su u1 u2 /\ (ucst u1 -> G)
  | _, _ => False
  end.
Lemma g_compute G q m1 m2 o1 o2 : sm G m1 m2 -> Forall2 su o1 o2 ->
  sh (fun p1 p2 => fst p1 = fst p2 /\ su (snd p1) (snd p2) /\ (ucst (snd p1) -> G /\
       match m1 with Deferred _ => ocst o1 = true | Concrete _ => True end)) (mb_compute q m1 o1) (mb_compute q m2 o2).
Proof.
  intros Hm Ho. destruct m1 as [us1|u1], m2 as [us2|u2]; cbn [sm] in Hm; try contradiction; cbn [mb_compute].
  - destruct Hm as (C & HU & HC).
    eapply sh_mono; [|apply (g_addmany (C /\ ocst o1 = true))].
    + intros p1 p2 (H1 & H2 & H3). split; [exact H1|]. split; [exact H2|]. intro c. rewrite H3 in c. unfold ocst in c.
      rewrite forallb_app in c. apply andb_prop in c as [c1 c2]. split; [apply HC, c1|exact c2].
    + apply Forall2_app.
      * eapply F2_mono; [|exact HU]. intros a b. apply wk_mono. tauto.
      * clear -Ho. induction Ho as [|a b l1 l2 H HO IH]; constructor.
        -- eapply wk_mono; [|exact H]. intros [_ c]. cbn in c. apply andb_prop in c as [c _]. exact c.
        -- eapply F2_mono; [|exact IH]. intros x y. apply wk_mono. intros [c0 c]. split; [exact c0|]. cbn in c. apply andb_prop in c as [_ c]. exact c.
    + intro c. unfold ocst in c. rewrite forallb_app in c. apply andb_prop in c as [c1 c2]. split; [apply HC, c1|exact c2].
  - cbn [sh fst snd]. destruct Hm as [Hu HG]. split; [reflexivity|]. split; [exact Hu|]. auto.
Qed.
Record sr (v1 v2 : rvars) : Prop := {
  sr_a : sm (ucst (rb v1)) (ra v1) (ra v2); sr_b : su (rb v1) (rb v2); sr_c : su (rc v1) (rc v2); sr_d : su (rd v1) (rd v2);
  sr_e : sm (ucst (rf v1)) (re v1) (re v2); sr_f : su (rf v1) (rf v2); sr_g : su (rg v1) (rg v2); sr_h : su (rh v1) (rh v2);
  sr_bc : ucst (rb v1) -> ucst (rc v1); sr_cd : ucst (rc v1) -> ucst (rd v1);
  sr_fg : ucst (rf v1) -> ucst (rg v1); sr_gh : ucst (rg v1) -> ucst (rh v1) }.
Definition deferred (m : maybe) : Prop := match m with Deferred _ => True | Concrete _ => False end.
Lemma g_round w1 w2 i q1 v1 q2 v2 : Forall2 su w1 w2 -> q1 = q2 -> sr v1 v2 ->
  sh (fun p1 p2 => fst p1 = fst p2 /\ sr (snd p1) (snd p2) /\ deferred (ra (snd p1)) /\ deferred (re (snd p1)))
    (sha_round w1 (q1, v1) i) (sha_round w2 (q2, v2) i).
Proof.
  intros Hw <- Hv. destruct Hv as [Ha Hb Hc Hd He Hf Hg Hh Bc Cd Fg Gh]. unfold sha_round. apply sh_ns.
  bnd; [apply sh_ns, (g_compute _ _ _ _ [] [] He); constructor|]. intros [p1 e1] [p2 e2]; cbn [fst snd]. intros (<- & He' & Ce).
  assert (Ef : ucst e1 -> ucst (rf v1)) by (intro c; apply Ce, c). clear Ce.
  bnd; [apply sh_ns, g_xor; apply g_rotr; [k32|exact He'|k32|exact He']|]. intros s1 s2 [Hs Cs].
  bnd; [apply sh_ns, g_xor; [exact Hs|apply g_rotr; [k32|exact He']]|]. intros t1 t2 [Ht Ct].
  rewrite Cs, !rotr_cst in Ct by (try k32; apply He').
  bnd; [apply sh_ns, (g_ch (ucst e1)); [exact He'| |]; (eapply wk_mono; [|eassumption]); tauto|]. intros h1 h2 Hch.
  bnd; [apply sh_lift, so_idx, Hw|]. intros x1 x2 Hx. cbv zeta.
  bnd; [apply sh_ns, (g_compute _ _ _ _ [] [] Ha); constructor|]. intros [r1 a1] [r2 a2]; cbn [fst snd]. intros (<- & Ha' & Ca).
  assert (Ab : ucst a1 -> ucst (rb v1)) by (intro c; apply Ca, c). clear Ca.
  bnd; [apply sh_ns, g_xor; apply g_rotr; [k32|exact Ha'|k32|exact Ha']|]. intros y1 y2 [Hy Cy].
  bnd; [apply sh_ns, g_xor; [exact Hy|apply g_rotr; [k32|exact Ha']]|]. intros z1 z2 [Hz Cz].
  rewrite Cy, !rotr_cst in Cz by (try k32; apply Ha').
  bnd; [apply sh_ns, (g_maj (ucst a1)); [exact Ha'| |]; (eapply wk_mono; [|eassumption]); tauto|]. intros m1 m2 Hm.
  cbn [sh fst snd]. split; [reflexivity|]. split; [|split; exact I].
  constructor; cbn [ra rb rc rd re rf rg rh]; try assumption; try (intros; tauto).
  - cbn [sm app]. exists (ucst e1 /\ ucst x1 /\ ucst a1). split.
    + f2; try (eapply wk_mono; [|eassumption]; tauto). apply su_constant.
    + unfold ocst; cbn [forallb]. rewrite Ct, Cz. intros H. repeat (apply andb_prop in H as [? H]).
      repeat match goal with H : _ && _ = true |- _ => apply andb_prop in H as [? ?] end. tauto.
  - cbn [sm app]. exists (ucst e1 /\ ucst x1 /\ ucst (rd v1)). split.
    + f2; try (eapply wk_mono; [|eassumption]; tauto). apply su_constant.
    + unfold ocst; cbn [forallb]. rewrite Ct. intros H. repeat (apply andb_prop in H as [? H]).
      repeat match goal with H : _ && _ = true |- _ => apply andb_prop in H as [? ?] end. tauto.
Qed.

(** ** Blocks *)
Inductive scur : list u32 -> list u32 -> Prop :=
| scur_8 a0 a1 a2 a3 a4 a5 a6 a7 b0 b1 b2 b3 b4 b5 b6 b7 :
    Forall2 su [a0; a1; a2; a3; a4; a5; a6; a7] [b0; b1; b2; b3; b4; b5; b6; b7] ->
    (ucst a0 -> ucst a1) -> (ucst a1 -> ucst a2) -> (ucst a2 -> ucst a3) ->
    (ucst a4 -> ucst a5) -> (ucst a5 -> ucst a6) -> (ucst a6 -> ucst a7) ->
    scur [a0; a1; a2; a3; a4; a5; a6; a7] [b0; b1; b2; b3; b4; b5; b6; b7].
Lemma g_from_be l1 l2 : bits2 l1 l2 -> sh su (u_from_be l1) (u_from_be l2).
Proof.
  intros H. unfold u_from_be. rewrite <- (F2_len _ _ _ H). destruct (Nat.eqb (List.length l1) 32) eqn:L; [|exact I].
  apply Nat.eqb_eq in L. cbn [negb sh]. split; [cbn [u_bits]; apply F2_rev, H|]. split; [cbn [u_bits]; rewrite rev_length; exact L|].
  cbn [u_bits u_val]. intro c. apply option_map_same.
  assert (c' : cst l1 = true).
  { unfold cst in *. rewrite forallb_forall in *. intros x Hx. apply c. rewrite <- in_rev. exact Hx. }
  clear c L. induction H as [|a b l1 l2 H HL IH]; [split; [reflexivity|discriminate]|].
  cbn in c'. apply andb_prop in c' as [ca cl]. destruct (IH cl) as [IH1 IH2]. destruct a, b; cbn in H, ca; try discriminate; try contradiction.
  subst. cbn [map bool_val]. apply all_some_cons; assumption.
Qed.
Lemma g_chunks {A B} (R : A -> B -> Prop) n : forall fuel l1 l2, Forall2 R l1 l2 -> Forall2 (Forall2 R) (chunks fuel n l1) (chunks fuel n l2).
Proof.
  induction fuel as [|f IH]; intros l1 l2 H; cbn [chunks]; [destruct H; constructor|].
  destruct H as [|a b l1 l2 Hab H]; [constructor|]. constructor; [apply F2_firstn; constructor; assumption|].
  apply IH, F2_skipn. constructor; assumption.
Qed.
Lemma sh_foldM_ne {A S S'} (RS RS' : S -> S' -> Prop) (f : S -> A -> prog S) (g : S' -> A -> prog S') a l :
  (forall s t a, RS s t -> sh RS' (f s a) (g t a)) -> (forall s t, RS' s t -> RS s t) ->
  forall s t, RS s t -> sh RS' (foldM f (a :: l) s) (foldM g (a :: l) t).
Proof.
  intros Hf HR. revert a. induction l as [|b l IH]; intros a s t Hs.
  - cbn [foldM]. bnd; [apply Hf, Hs|]. intros x y Hxy. exact Hxy.
  - cbn [foldM]. bnd; [apply Hf, Hs|]. intros x y Hxy. exact (IH b x y (HR _ _ Hxy)).
Qed.
Lemma g_add2 q a1 a2 b1 b2 : su a1 a2 -> su b1 b2 ->
  sh (fun p1 p2 => fst p1 = fst p2 /\ su (snd p1) (snd p2) /\ cst (u_bits (snd p1)) = cst (u_bits a1) && cst (u_bits b1)) (u_addmany q [a1; b1]) (u_addmany q [a2; b2]).
Proof.
  intros Ha Hb. eapply sh_mono; [|apply (g_addmany (ucst a1 /\ ucst b1))].
  - intros p1 p2 (H1 & H2 & H3). split; [exact H1|]. split; [exact H2|]. rewrite H3. unfold ocst; cbn [forallb]. rewrite andb_true_r. reflexivity.
  - f2; (eapply wk_mono; [|eassumption]); tauto.
  - unfold ocst; cbn [forallb]. rewrite andb_true_r. apply andb_prop.
Qed.
Lemma sh_bind_ns {A B A' B'} (R : A -> A' -> Prop) (S : B -> B' -> Prop) nm m1 m2 (f : A -> prog B) (g : A' -> prog B') :
  sh R m1 m2 -> (forall a b, R a b -> sh S (f a) (g b)) -> sh S (bind (ns nm m1) f) (bind (ns nm m2) g).
Proof. intros H K. bnd; [apply sh_ns, H|exact K]. Qed.
Lemma g_compress i1 i2 c1 c2 : bits2 i1 i2 -> scur c1 c2 -> sh scur (sha_compress i1 c1) (sha_compress i2 c2).
Proof.
  intros Hi Hc. unfold sha_compress. rewrite <- (F2_len _ _ _ Hi). destruct (negb _); [exact I|].
  destruct Hc as [a0 a1 a2 a3 a4 a5 a6 a7 b0 b1 b2 b3 b4 b5 b6 b7 HF O0 O1 O2 O4 O5 O6].
  repeat match goal with H : Forall2 su (_ :: _) (_ :: _) |- _ => inversion H; subst; clear H end.
  bnd; [eapply sh_mapM; [apply g_chunks, Hi|apply g_from_be]|]. intros w1 w2 Hw.
  bnd; [eapply (sh_foldM eq (fun p1 p2 : meq * list u32 => fst p1 = fst p2 /\ Forall2 su (snd p1) (snd p2))); [apply F2_refl| |split; [reflexivity|exact Hw]]|].
  { intros [q1 u1] [q2 u2] i ? [Hq Hu] <-. cbn [fst snd] in *. apply g_extend; assumption. }
  intros [q1 u1] [q2 u2]; cbn [fst snd]; intros [<- Hu].
  change (seq 0 64) with (0%nat :: seq 1 63).
  bnd; [apply (sh_foldM_ne (fun p1 p2 : meq * rvars => fst p1 = fst p2 /\ sr (snd p1) (snd p2))
      (fun p1 p2 : meq * rvars => fst p1 = fst p2 /\ sr (snd p1) (snd p2) /\ deferred (ra (snd p1)) /\ deferred (re (snd p1))))|].
  { intros [p1 x1] [p2 x2] i [Hq Hr]. cbn [fst snd] in *. apply g_round; assumption. }
  { intros s t (K1 & K2 & _). auto. }
  { cbn [fst snd]. split; [reflexivity|]. constructor; cbn [ra rb rc rd re rf rg rh sm]; auto. }
  intros [p1 v1] [p2 v2]; cbn [fst snd]. intros (<- & Hv & Da & De). destruct Hv as [Ha Hb Hc Hd He Hf Hg Hh Bc Cd Fg Gh].
  eapply sh_bind_ns; [eapply (g_compute _ _ _ _ [_] [_] Ha); constructor; [eassumption|constructor]|]. intros [? o0] [? r0]; cbn [fst snd]. intros (<- & R0 & C0).
  eapply sh_bind_ns; [eapply g_add2; eassumption|]. intros [? o1] [? r1]; cbn [fst snd]. intros (<- & R1 & C1).
  eapply sh_bind_ns; [eapply g_add2; eassumption|]. intros [? o2] [? r2]; cbn [fst snd]. intros (<- & R2 & C2).
  eapply sh_bind_ns; [eapply g_add2; eassumption|]. intros [? o3] [? r3]; cbn [fst snd]. intros (<- & R3 & C3).
  eapply sh_bind_ns; [eapply (g_compute _ _ _ _ [_] [_] He); constructor; [eassumption|constructor]|]. intros [? o4] [? r4]; cbn [fst snd]. intros (<- & R4 & C4).
  eapply sh_bind_ns; [eapply g_add2; eassumption|]. intros [? o5] [? r5]; cbn [fst snd]. intros (<- & R5 & C5).
  eapply sh_bind_ns; [eapply g_add2; eassumption|]. intros [? o6] [? r6]; cbn [fst snd]. intros (<- & R6 & C6).
  eapply sh_bind_ns; [eapply g_add2; eassumption|]. intros [? o7] [? r7]; cbn [fst snd]. intros (<- & R7 & C7).
  bnd; [apply g_drop|]. intros _ _ _. cbn [sh].
  destruct (ra v1); [|contradiction]. destruct (re v1); [|contradiction].
  unfold ocst in C0, C4; cbn [forallb] in C0, C4. rewrite andb_true_r in C0, C4.
  constructor.
  - f2; assumption.
  - rewrite C1. intro c. destruct (C0 c). apply andb_true_intro. tauto.
  - rewrite C1, C2. intro c. apply andb_prop in c. apply andb_true_intro. tauto.
  - rewrite C2, C3. intro c. apply andb_prop in c. apply andb_true_intro. tauto.
  - rewrite C5. intro c. destruct (C4 c). apply andb_true_intro. tauto.
  - rewrite C5, C6. intro c. apply andb_prop in c. apply andb_true_intro. tauto.
  - rewrite C6, C7. intro c. apply andb_prop in c. apply andb_true_intro. tauto.
Qed.
Lemma F2_repeat {A B} (R : A -> B -> Prop) a b n : R a b -> Forall2 R (repeat a n) (repeat b n).
Proof. intro H. induction n; cbn; constructor; auto. Qed.
Lemma g_pad l1 l2 : bits2 l1 l2 -> bits2 (sha_pad l1) (sha_pad l2).
Proof.
  intros H. unfold sha_pad. cbv zeta. rewrite <- (F2_len _ _ _ H). apply Forall2_app; [exact H|].
  apply Forall2_app; [constructor; [reflexivity|constructor]|]. apply Forall2_app; [apply F2_repeat; reflexivity|].
  generalize (rev (seq 0 64)). intro l. induction l; cbn [map]; constructor; auto. reflexivity.
Qed.
Lemma scur_F2 c1 c2 : scur c1 c2 -> Forall2 su c1 c2.
Proof. intros []. assumption. Qed.
Lemma g_sha_r1cs l1 l2 : bits2 l1 l2 -> sh bits2 (sha256_r1cs l1) (sha256_r1cs l2).
Proof.
  intros H. unfold sha256_r1cs. rewrite <- (F2_len _ _ _ H). destruct (negb _); [exact I|]. cbv zeta.
  pose proof (g_pad _ _ H) as HP. pose proof (g_chunks same_bool 512 (List.length (sha_pad l1)) _ _ HP) as HB.
  rewrite <- (F2_len _ _ _ HP). rewrite <- (F2_len _ _ _ HB).
  bnd; [eapply (sh_foldM (fun p q => fst p = fst q /\ bits2 (snd p) (snd q)) scur); [apply F2_seq; [exact HB|reflexivity]| |]|].
  - intros s t [i x] [j y] Hs; cbn [fst snd]; intros [-> Hxy]. apply sh_ns, g_compress; assumption.
  - cbn [map H0]. constructor; try (intros _; apply constant_cst). f2; apply su_constant.
  - intros c1 c2 Hc. cbn [sh]. apply scur_F2 in Hc. induction Hc as [|a b c1 c2 (Hab & _) _ IH]; cbn [flat_map]; [constructor|].
    apply Forall2_app; [apply F2_rev, Hab|exact IH].
Qed.

(** ** The circuits that hash *)
Lemma g_check_prev_r1cs p1 p2 h1 h2 : List.length p1 = List.length p2 -> List.length h1 = List.length h2 ->
  sh any (check_prev_hash_r1cs p1 h1) (check_prev_hash_r1cs p2 h2).
Proof.
  intros Hp Hh. unfold check_prev_hash_r1cs, check_prev_hash_by. bnd; [apply g_words, Hh|]. intros x1 x2 Hx. bnd; [apply g_words, Hp|]. intros.
  bnd; [apply sh_unwrap, sh_ns, g_sha_r1cs; eassumption|]. intros.
  bnd; [apply sh_unwrap, sh_ns, g_sha_r1cs; eassumption|]. intros o1 o2 Ho.
  pose proof (F2_combine _ _ _ _ _ _ Hx Ho) as HC. rewrite <- (F2_len _ _ _ HC).
  eapply sh_iterM; [apply F2_seq; [exact HC|reflexivity]|]. intros [i [u1 u2]] [j [v1 v2]]; cbn [fst snd]; intros [-> [Ha Hb]].
  apply g_enforce_equal; assumption.
Qed.
Lemma g_pow_r1cs h1 h2 : List.length h1 = List.length h2 ->
  sh (fun p q => same_an (snd (fst p)) (snd (fst q)) /\ same_an (snd p) (snd q)) (stage_pow_r1cs h1) (stage_pow_r1cs h2).
Proof.
  intros H. unfold stage_pow_r1cs, stage_pow_by. do 3 (bnd; [apply sh_lift_any|]; intros ? ? _).
  bnd; [apply g_an_u|]. intros. bnd; [apply g_words, H|]. intros.
  bnd; [apply sh_unwrap, sh_ns, g_sha_r1cs; eassumption|]. intros.
  bnd; [apply sh_unwrap, sh_ns, g_sha_r1cs; eassumption|]. intros. bnd; [apply g_an_u|]. intros.
  bnd; [apply sh_unwrap, sh_ns, g_less_than|]. intros.
  bnd; [apply g_assert_true|]. intros. cbn. auto.
Qed.
Lemma g_synthesize_r1cs o1 o2 h1 h2 z1 z2 : Forall2 same_an o1 o2 -> List.length h1 = List.length h2 -> Forall2 same_an z1 z2 ->
  sh (Forall2 same_an) (synthesize_r1cs o1 h1 z1) (synthesize_r1cs o2 h2 z2).
Proof.
  intros Ho Hh Hz. unfold synthesize_r1cs, synthesize_by. bnd; [apply g_stage1, Hz|]. intros ? ? _.
  bnd; [apply g_pow_r1cs, Hh|]. intros [[q1 t1] c1] [[q2 t2] c2]; cbn [fst snd]; intros [Ht Hc].
  bnd; [apply g_stage3|]. intros. bnd; [apply g_stage4, Ht|]. intros.
  bnd; [apply g_stage5; eassumption|]. intros [[? ?] s1] [[? ?] s2]; cbn [snd]; intros Hs.
  apply g_stage6; assumption.
Qed.
End ShaShape.
