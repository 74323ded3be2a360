(** The project's unit tests, over its test field with floating point carry widths (C83). *)
From Coq Require Import ZArith Bool String List Lia ZifyBool ZifyNat.
From Verif.Model Require Import Base CS TestCS Bellpepper Util Poly Bignat RepoTests Fields F64.
From Verif.Spec Require Import Spec SpecF64.
From Verif.Proofs Require Import Field Arith TopBignat2 PrimeFields F64P TopF64 TestsP.
Import ListNotations.
Local Open Scope Z_scope.
Notation length := List.length.

Section Fr.
Context (l : f64 -> f64) (ck : bool) (HL : faithful_log2 l).
Let E : Env := fr_f64 l ck.
Local Existing Instance E.
Let W : Wf E := wf_fr_f64 l ck.
Local Existing Instance W.

Lemma cap_fr_f64 : CAPACITY = 254%nat.
Proof. vm_compute. reflexivity. Qed.
Lemma bits_fr_f64 : NUM_BITS = 255%nat.
Proof. vm_compute. reflexivity. Qed.

Lemma cap_500 : (CAPACITY <= 500)%nat.
Proof. rewrite cap_fr_f64. lia. Qed.
Definition awayb (M : Z) : bool := (M =? 2 ^ Z.log2 M) || (2 ^ Z.log2 M <=? (M - 2 ^ Z.log2 M) * 2 ^ 43).
Lemma exact_lit M w : (0 <=? M) && (M <? 2 ^ 1020) && (Z.of_nat w <? 2 ^ 53) && awayb M = true ->
  carry_bits_f64 M w = carry_bits_exact M w.
Proof.
  rewrite !andb_true_iff, Z.leb_le, !Z.ltb_lt. intros [[[H1 H2] H3] H4].
  apply (exact_of_away (E := E)); [apply f64_carries_fr, HL|lia|auto|]. right.
  unfold awayb in H4. rewrite orb_true_iff, Z.eqb_eq, Z.leb_le in H4. exact H4.
Qed.

Lemma carrier_room : no_wrap 10 3 /\ carry_room 10 3 /\ group_no_wrap 10 3 /\ group_room 10 3.
Proof.
  assert (H1 : carry_bits_f64 10 3 = 2%nat) by (rewrite exact_lit; vm_compute; reflexivity).
  assert (Hg : group_size 10 3 = 84%nat) by (unfold group_size; rewrite H1, cap_fr_f64; reflexivity).
  assert (HR : group_no_wrap 10 3 /\ group_room 10 3).
  { apply top_roomy; rewrite ?H1, ?Hg, ?cap_fr_f64; try lia.
    - rewrite <- H1. rewrite exact_lit; vm_compute; reflexivity.
    - apply exact_lit. unfold group_word. rewrite Hg. vm_compute. reflexivity.
    }
  split; [|split; [|exact HR]].
  - unfold no_wrap, carry_width. rewrite H1. vm_compute. split; discriminate.
  - unfold carry_room, carry_width. rewrite H1, cap_fr_f64. split; [vm_compute; discriminate|cbn; lia].
Qed.

Lemma top_carrier_fr a b n : (1 <= n)%nat -> length a = n -> length b = n ->
  Forall (fun v => 0 <= v <= 10) a -> Forall (fun v => 0 <= v <= 10) b ->
  verdict (carrier a b 10 3 n) = Ok (value_of 8 (rev a) =? value_of 8 (rev b)).
Proof.
  intros. destruct carrier_room as (R1 & R2 & R3 & R4).
  apply (top_carrier_verdict (E := E) a b 10 3 n); auto. reflexivity.
Qed.

(** The conditions of the modular multiplication circuit, computed. *)
Definition mult_mod_ok (w na nb nm : nat) (full : bool) (a b m q r : Z) : bool :=
  let X := 2 ^ Z.of_nat w in
  let ql := q_limbs (w * na + w * nb) (if full then w * nm else 0)%nat w in
  let k := Nat.max (Nat.min na nb) (Nat.min ql nm) in
  let M := Z.max (product_word na (X - 1) nb (X - 1)) (product_word ql (X - 1) nm (X - 1) + (X - 1)) in
  let g := ((254 - carry_bits_exact M w) / w)%nat in
  let nl := (na + nb - 1)%nat in let nr := Nat.max (ql + nm - 1) nm in
  forallb id
   [1 <=? Z.of_nat w; Z.of_nat w <? 255; 1 <=? Z.of_nat na; 1 <=? Z.of_nat nb; 1 <=? Z.of_nat nm;
    Z.of_nat nm <? Z.of_nat (na + nb);
    0 <=? a; a <? 2 ^ Z.of_nat (w * na); 0 <=? b; b <? 2 ^ Z.of_nat (w * nb);
    0 <? m; m <? 2 ^ Z.of_nat (w * nm); 0 <=? q; q <? 2 ^ Z.of_nat (w * (na + nb - nm));
    0 <=? r; r <? 2 ^ Z.of_nat (w * nm); a * b / m <? 2 ^ Z.of_nat (w * ql);
    Z.of_nat k <=? 2 ^ 42; 4 * Z.of_nat k <? X; 2 * M <=? 2 ^ 254;
    (0 <=? M) && (M <? 2 ^ 1020) && (Z.of_nat w <? 2 ^ 53) && awayb M;
    Nat.eqb (n_groups nl g) (n_groups nr g) ||
      (a * b <? 2 ^ Z.of_nat (w * (Nat.min (n_groups nl g) (n_groups nr g) * g)))].

Lemma top_mult_mod_fr w na nb nm full a b m q r : mult_mod_ok w na nb nm full a b m q r = true ->
  verdict (mult_mod_circuit w na nb nm full a b m q r) =
    Ok ((negb full || (2 ^ Z.of_nat (w * nm - 1) <=? m)) && (q =? a * b / m) && (r =? (a * b) mod m)).
Proof.
  unfold mult_mod_ok. cbv zeta. set (X := 2 ^ Z.of_nat w).
  set (ql := q_limbs (w * na + w * nb) (if full then w * nm else 0)%nat w).
  set (M := Z.max (product_word na (X - 1) nb (X - 1)) (product_word ql (X - 1) nm (X - 1) + (X - 1))).
  set (g := ((254 - carry_bits_exact M w) / w)%nat).
  intros H. rewrite forallb_forall in H. rewrite <- Forall_forall in H.
  repeat match goal with
  | H : Forall _ (_ :: _) |- _ => let A := fresh "A" in apply Forall_cons_iff in H; destruct H as [A H]; unfold id in A
  end. clear H.
  assert (HM : carry_bits_f64 M w = carry_bits_exact M w) by (apply exact_lit; assumption).
  assert (Hg : group_size M w = g) by (unfold group_size; rewrite HM, cap_fr_f64; reflexivity).
  clear HM.
  repeat match goal with
  | H : (_ <=? _) = true |- _ => apply Z.leb_le in H
  | H : (_ <? _) = true |- _ => apply Z.ltb_lt in H
  end.
  rewrite orb_true_iff, Nat.eqb_eq, Z.ltb_lt in A20.
  assert (Hq : (1 <= ql)%nat) by (unfold ql, q_limbs; rewrite Nat.add_comm; apply Nat.le_add_r).
  assert (N1 : (1 <= w)%nat) by (clear - A; lia). assert (N2 : (w < 255)%nat) by (clear - A0; lia).
  assert (N3 : (1 <= na)%nat) by (clear - A1; lia). assert (N4 : (1 <= nb)%nat) by (clear - A2; lia).
  assert (N5 : (1 <= nm)%nat) by (clear - A3; lia). assert (N6 : (nm < na + nb)%nat) by (clear - A4; lia).
  apply (top_mult_mod_verdict (E := E) w na nb nm full a b m q r); try (split; assumption); try assumption.
  - apply (top_f64_mod (E := E) (f64_carries_fr l ck HL) cap_500 w na nb ql nm); try assumption.
  - fold X ql M. rewrite Hg. exact A20.
Qed.

Lemma top_repo_tests :
  (verdict (carrier [1; 1] [1; 1] 10 3 2) = Ok true /\
   verdict (carrier [1; 1; 1; 1] [1; 1; 1; 1] 10 3 4) = Ok true /\
   verdict (carrier [1; 0; 1; 1] [1; 1; 1; 1] 10 3 4) = Ok false /\
   verdict (carrier [1; 1; 0; 9] [1; 1; 1; 1] 10 3 4) = Ok true /\
   verdict (carrier [1; 1; 9; 9] [1; 2; 2; 1] 10 3 4) = Ok true /\
   verdict (carrier [1; 1; 8; 9] [1; 2; 2; 1] 10 3 4) = Ok false) /\
  (verdict (mult_mod_circuit 4 2 2 2 true 1 1 255 0 1) = Ok true /\
   verdict (mult_mod_circuit 4 2 2 2 true 1 0 255 0 0) = Ok true /\
   verdict (mult_mod_circuit 4 2 2 2 true 2 2 255 0 4) = Ok true /\
   verdict (mult_mod_circuit 4 2 2 2 true 16 16 255 1 1) = Ok true /\
   verdict (mult_mod_circuit 4 2 2 2 true 254 254 255 253 1) = Ok true /\
   verdict (mult_mod_circuit 4 2 2 2 true 254 254 255 253 0) = Ok false /\
   verdict (mult_mod_circuit 4 2 2 2 true 110 180 187 105 165) = Ok true /\
   verdict (mult_mod_circuit 4 6 2 2 true 16777215 180 255 11842740 0) = Ok true /\
   verdict (mult_mod_circuit 4 6 2 2 true 16777210 180 255 11842736 120) = Ok true /\
   verdict (mult_mod_circuit 32 64 4 4 false 16777210 180 255 11842736 120) = Ok true /\
   verdict (mult_mod_circuit 32 8 8 8 false
     11572336752428856981970994795408771577024165681374400871001196932361466228192
     87673389408848523602668121701204553693362841135953267897017930941776218798802
     0x40000000000000000000000000000000224698fc094cf91b992d30ed00000001
     35048542371029440058224000662033175648615707461806414787901284501179083518342
     26362617993085418618858432307761590013874563896298265114483698919121453084730) = Ok true) /\
  (verdict (number_bit_decomp 1 1) = Ok true /\ verdict (number_bit_decomp 1 2) = Ok true /\
   verdict (number_bit_decomp 5 2) = Ok false /\ verdict (number_bit_decomp 255 8) = Ok true).
Proof.
  split; [|split].
  - repeat match goal with |- _ /\ _ => split end; (rewrite top_carrier_fr; [vm_compute; reflexivity|lia|reflexivity|reflexivity| |]; repeat constructor; lia).
  - repeat match goal with |- _ /\ _ => split end; (rewrite top_mult_mod_fr by (vm_compute; reflexivity); vm_compute; reflexivity).
  - repeat match goal with |- _ /\ _ => split end; (rewrite (top_decomp_verdict (E := E)); [vm_compute; reflexivity|lia|rewrite bits_fr_f64; lia]).
Qed.

Lemma top_quickcheck_fr n w : 0 <= n ->
  big_nat_can_decompose n w = if (4 <=? w)%nat && (w <=? 200)%nat then Some (Ok true) else None.
Proof. intros. apply (top_quickcheck (E := E)); auto. rewrite bits_fr_f64. lia. Qed.
End Fr.
