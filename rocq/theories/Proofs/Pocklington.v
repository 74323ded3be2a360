(** Pocklington's criterion, used to show that the moduli of the concrete fields are prime. *)
From Coq Require Import ZArith Znumtheory Bool List Lia Permutation Zpow_facts Setoid Morphisms.
Import ListNotations.
Local Open Scope Z_scope.

(** ** Congruence *)
Definition cong (r a b : Z) : Prop := (r | a - b).
Lemma cong_refl r a : cong r a a.
Proof. unfold cong. rewrite Z.sub_diag. apply Z.divide_0_r. Qed.
Lemma cong_sym r a b : cong r a b -> cong r b a.
Proof. intros [k H]. exists (- k). lia. Qed.
Lemma cong_trans r a b c : cong r a b -> cong r b c -> cong r a c.
Proof. intros [k H] [l K]. exists (k + l). lia. Qed.
Lemma cong_mul r a b c d : cong r a b -> cong r c d -> cong r (a * c) (b * d).
Proof. intros [k H] [l K]. exists (k * c + b * l). nia. Qed.
Lemma cong_mod r a : r <> 0 -> cong r (a mod r) a.
Proof. intros H. exists (- (a / r)). pose proof (Z.div_mod a r H). lia. Qed.
Lemma cong_pow r a b n : 0 <= n -> cong r a b -> cong r (a ^ n) (b ^ n).
Proof.
  intros Hn H. pattern n. apply natlike_ind; auto; [apply cong_refl|].
  intros x Hx IH. rewrite !Z.pow_succ_r by auto. apply cong_mul; auto.
Qed.
Lemma cong_divide r n a b : (r | n) -> cong n a b -> cong r a b.
Proof. unfold cong. intros. eapply Z.divide_trans; eauto. Qed.

(** ** Fermat's little theorem *)
Definition prod (l : list Z) : Z := fold_right Z.mul 1 l.
Lemma prod_perm l l' : Permutation l l' -> prod l = prod l'.
Proof. induction 1; cbn [prod fold_right] in *; unfold prod in *; try lia; congruence. Qed.
Definition units (p : Z) : list Z := map Z.of_nat (seq 1 (Z.to_nat p - 1)).
Lemma in_units p x : 1 < p -> In x (units p) <-> 0 < x < p.
Proof.
  intros Hp. unfold units. rewrite in_map_iff. split.
  - intros (k & <- & Hk). rewrite in_seq in Hk. lia.
  - intros Hx. exists (Z.to_nat x). rewrite in_seq. lia.
Qed.
Lemma prod_map_mod p a l : 0 < p -> cong p (prod (map (fun x => (a * x) mod p) l)) (a ^ Z.of_nat (length l) * prod l).
Proof.
  intros Hp. induction l as [|x l IH]; [cbn; apply cong_refl|].
  cbn [map prod fold_right length]. rewrite Nat2Z.inj_succ, Z.pow_succ_r by lia.
  replace (a * a ^ Z.of_nat (length l) * (x * fold_right Z.mul 1 l)) with ((a * x) * (a ^ Z.of_nat (length l) * prod l)) by (unfold prod; ring).
  apply cong_mul; [apply cong_mod; lia|exact IH].
Qed.
Lemma prod_rel_prime p l : prime p -> (forall x, In x l -> 0 < x < p) -> rel_prime p (prod l).
Proof.
  intros Hp. induction l as [|x l IH]; intros H; cbn.
  - apply rel_prime_sym, rel_prime_1.
  - apply rel_prime_mult; [|apply IH; intros; apply H; now right].
    apply rel_prime_sym, rel_prime_le_prime; auto. specialize (H x (or_introl eq_refl)). lia.
Qed.
Lemma cong_cancel p a b c : rel_prime p c -> cong p (a * c) (b * c) -> cong p a b.
Proof.
  unfold cong. intros Hr H. apply (Gauss p c); auto. replace (c * (a - b)) with (a * c - b * c) by ring. auto.
Qed.
Lemma fermat p a : prime p -> ~ (p | a) -> cong p (a ^ (p - 1)) 1.
Proof.
  intros Hp Ha. pose proof (prime_ge_2 _ Hp) as H2.
  assert (Hra : rel_prime p a) by now apply prime_rel_prime.
  set (f := fun x => (a * x) mod p).
  assert (Hin : forall x, 0 < x < p -> 0 < f x < p).
  { intros x Hx. unfold f. pose proof (Z.mod_pos_bound (a * x) p ltac:(lia)).
    assert ((a * x) mod p <> 0); [|lia]. intros H0. apply Z.mod_divide in H0; [|lia].
    apply prime_mult in H0; auto. destruct H0 as [|H0]; [auto|]. apply Z.divide_pos_le in H0; lia. }
  assert (Hinj : forall x y, 0 < x < p -> 0 < y < p -> f x = f y -> x = y).
  { intros x y Hx Hy Hf. unfold f in Hf.
    assert (H : cong p (a * x) (a * y)).
    { eapply cong_trans; [apply cong_sym, (cong_mod p); lia|]. rewrite Hf. apply cong_mod. lia. }
    rewrite !(Z.mul_comm a) in H. apply cong_cancel in H; auto. destruct H as [k Hk].
    assert (k < 1) by nia. assert (-1 < k) by nia. assert (k = 0) by lia. subst k. lia. }
  assert (HND : NoDup (units p)).
  { unfold units. apply FinFun.Injective_map_NoDup; [intros ? ? ?; lia|apply seq_NoDup]. }
  assert (HNDf : NoDup (map f (units p))).
  { assert (G : forall l, NoDup l -> (forall x, In x l -> 0 < x < p) -> NoDup (map f l)).
    { induction l as [|x l IH]; intros N Hl; cbn; [constructor|]. inversion N; subst.
      constructor; [|apply IH; auto; intros; apply Hl; now right].
      rewrite in_map_iff. intros (y & Hy & Hyl). apply Hinj in Hy; [congruence| |]; apply Hl; [now right|now left]. }
    apply G; auto. intros x. now rewrite in_units by lia. }
  assert (HP : Permutation (map f (units p)) (units p)).
  { apply NoDup_Permutation_bis; auto; [now rewrite map_length|].
    intros x Hx. apply in_map_iff in Hx. destruct Hx as (y & <- & Hy). apply in_units; [lia|]. apply Hin. now apply in_units in Hy; [|lia]. }
  pose proof (prod_map_mod p a (units p) ltac:(lia)) as H. fold f in H. rewrite (prod_perm _ _ HP) in H.
  assert (HL : Z.of_nat (length (units p)) = p - 1) by (unfold units; rewrite map_length, seq_length; lia).
  rewrite HL in H. apply (cong_cancel p _ _ (prod (units p))).
  - apply prod_rel_prime; auto. intros x Hx. now apply in_units in Hx; [|lia].
  - rewrite Z.mul_1_l. now apply cong_sym.
Qed.

(** ** Exponents *)
Lemma cong_pow_1 r a m n : 0 <= m -> 0 <= n -> cong r (a ^ m) 1 -> cong r (a ^ (m * n)) 1.
Proof.
  intros Hm Hn H. rewrite Z.pow_mul_r by auto. replace 1 with (1 ^ n) by (apply Z.pow_1_l; auto). now apply cong_pow.
Qed.
Lemma cong_gcd r a m n : rel_prime r a -> 0 < m -> 0 < n -> cong r (a ^ m) 1 -> cong r (a ^ n) 1 -> cong r (a ^ Z.gcd m n) 1.
Proof.
  intros Hr Hm Hn H1 H2. destruct (Z.gcd_bezout m n _ eq_refl) as (u & v & Huv).
  set (g := Z.gcd m n) in *. assert (Hg : 0 <= g) by apply Z.gcd_nonneg.
  (* pick nonnegative coefficients: g + m*x = n*y *)
  assert (Hx : exists x y, 0 <= x /\ 0 <= y /\ g + m * x = n * y).
  { exists (- u + Z.abs u * n + Z.abs v * n), (v + Z.abs u * m + Z.abs v * m).
    split; [nia|]. split; [nia|]. rewrite <- Huv. ring. }
  destruct Hx as (x & y & X0 & Y0 & HE).
  assert (K1 : cong r (a ^ (m * x)) 1) by (apply cong_pow_1; auto; lia).
  assert (K2 : cong r (a ^ (n * y)) 1) by (apply cong_pow_1; auto; lia).
  rewrite <- HE, Z.pow_add_r in K2 by nia.
  eapply cong_trans; [|exact K2]. apply cong_sym. rewrite <- (Z.mul_1_r (a ^ g)) at 2. apply cong_mul; [apply cong_refl|auto].
Qed.

(** If [d] divides [n] but not [n/q], the whole power of the prime [q] in [n] divides [d]. *)
Lemma full_power n d q e : prime q -> 0 <= e -> (q | n) -> (d | n) -> ~ (d | n / q) -> (q ^ e | n) -> (q ^ e | d).
Proof.
  intros Hq He Hqn [c Hc] Hnd Hqe. pose proof (prime_ge_2 _ Hq).
  assert (Hqc : ~ (q | c)).
  { intros [k Hk]. apply Hnd. exists k. rewrite Hc, Hk. replace (k * q * d) with (k * d * q) by ring. apply Z.div_mul. lia. }
  assert (Hrel : rel_prime (q ^ e) c).
  { apply rel_prime_sym. apply Zpow_facts.rel_prime_Zpower_r; auto. apply rel_prime_sym. now apply prime_rel_prime. }
  apply (Gauss _ c); auto. now rewrite <- Hc.
Qed.

(** ** The criterion *)
Definition qpow (qe : Z * Z) : Z := fst qe ^ snd qe.
Definition factored (l : list (Z * Z)) : Z := fold_right (fun qe x => qpow qe * x) 1 l.

Lemma factored_divide d l : (forall q e, In (q, e) l -> prime q /\ 0 <= e /\ (q ^ e | d)) -> NoDup (map fst l) -> (factored l | d).
Proof.
  intros H N. induction l as [|[q e] l IH]; cbn [factored fold_right]; [apply Z.divide_1_l|].
  inversion N as [|? ? N1 N2]; subst. fold (factored l).
  destruct (H q e (or_introl eq_refl)) as (Hq & He & Hd).
  assert (Hrel : rel_prime (q ^ e) (factored l)).
  { assert (G : forall q' e', In (q', e') l -> prime q' /\ 0 <= e') by (intros; destruct (H q' e'); [now right|tauto]).
    clear IH H N N2. induction l as [|[q' e'] l IH]; cbn [factored fold_right]; [apply rel_prime_sym, rel_prime_1|].
    destruct (G q' e' (or_introl eq_refl)) as [Hq' He']. cbn [map fst In] in N1.
    apply rel_prime_mult; [|apply IH; [tauto|intros; apply G; now right]].
    unfold qpow; cbn [fst snd]. apply rel_prime_sym, rel_prime_Zpower_r; auto. apply rel_prime_sym, rel_prime_Zpower_r; auto.
    apply rel_prime_sym. destruct (prime_dec q); [|tauto].
    apply prime_rel_prime; auto. intros Hdiv. apply prime_div_prime in Hdiv; auto. }
  assert (IH' : (factored l | d)) by (apply IH; auto; intros; apply H; now right).
  unfold qpow; cbn [fst snd]. destruct IH' as [k Hk]. rewrite Hk in Hd |- *.
  rewrite Z.mul_comm in Hd. apply Gauss in Hd; auto. destruct Hd as [j Hj]. exists j. rewrite Hj. ring.
Qed.

Lemma prime_divisor n : 1 < n -> exists r, prime r /\ (r | n).
Proof.
  intros Hn. assert (G : forall m : nat, forall n, 1 < n <= Z.of_nat m -> exists r, prime r /\ (r | n)).
  { induction m as [|m IH]; intros k Hk; [lia|]. destruct (prime_dec k) as [Hp|Hp]; [exists k; split; auto; apply Z.divide_refl|].
    destruct (not_prime_divide k ltac:(lia) Hp) as (d & Hd & Hdk).
    destruct (IH d ltac:(lia)) as (r & Hr & Hrd). exists r. split; auto. eapply Z.divide_trans; eauto. }
  apply (G (Z.to_nat n)). lia.
Qed.
Lemma small_prime_divisor n : 1 < n -> ~ prime n -> exists r, prime r /\ (r | n) /\ r * r <= n.
Proof.
  intros Hn Hp. destruct (not_prime_divide n Hn Hp) as (d & Hd & [c Hc]).
  destruct (Z.le_gt_cases d c).
  - destruct (prime_divisor d ltac:(lia)) as (r & Hr & Hrd). exists r. split; auto.
    assert (r <= d) by (apply Z.divide_pos_le; auto; lia). pose proof (prime_ge_2 _ Hr).
    split; [eapply Z.divide_trans; eauto; exists c; lia|nia].
  - destruct (prime_divisor c ltac:(nia)) as (r & Hr & Hrd). exists r. split; auto.
    assert (r <= c) by (apply Z.divide_pos_le; auto; nia). pose proof (prime_ge_2 _ Hr).
    split; [eapply Z.divide_trans; eauto; exists d; lia|nia].
Qed.

Theorem pocklington n a l : 1 < n -> NoDup (map fst l) ->
  (forall q e, In (q, e) l -> prime q /\ 0 < e) -> (factored l | n - 1) -> n <= factored l * factored l ->
  cong n (a ^ (n - 1)) 1 -> (forall q e, In (q, e) l -> Z.gcd (a ^ ((n - 1) / q) - 1) n = 1) -> prime n.
Proof.
  intros Hn N HP HF HB H1 Hg. destruct (prime_dec n) as [|Hc]; auto. exfalso.
  destruct (small_prime_divisor n Hn Hc) as (r & Hr & Hrn & Hrr). pose proof (prime_ge_2 _ Hr).
  pose proof (cong_divide _ _ _ _ Hrn H1) as H1r.
  assert (Hra : ~ (r | a)).
  { intros Ha. assert (r | 1).
    { destruct H1r as [k Hk]. assert (r | a ^ (n - 1)).
      { replace (n - 1) with (Z.succ (n - 2)) by lia. rewrite Z.pow_succ_r by lia. now apply Z.divide_mul_l. }
      replace 1 with (a ^ (n - 1) - (a ^ (n - 1) - 1)) by ring. apply Z.divide_sub_r; auto. exists k; auto. }
    apply Z.divide_pos_le in H0; lia. }
  pose proof (fermat r a Hr Hra) as Hf.
  pose proof (cong_gcd r a (n - 1) (r - 1) (prime_rel_prime _ Hr _ Hra) ltac:(lia) ltac:(lia) H1r Hf) as Hd.
  set (d := Z.gcd (n - 1) (r - 1)) in *.
  assert (Hdn : (d | n - 1)) by apply Z.gcd_divide_l. assert (Hdr : (d | r - 1)) by apply Z.gcd_divide_r.
  assert (Hd0 : 0 < d). { pose proof (Z.gcd_nonneg (n - 1) (r - 1)). fold d in H0. destruct (Z.eq_dec d 0) as [E|]; [|lia]. rewrite E in Hdn. destruct Hdn; lia. }
  assert (HFd : (factored l | d)).
  { apply factored_divide; auto. intros q e Hqe. destruct (HP q e Hqe) as [Hq He]. split; auto. split; [lia|].
    pose proof (prime_ge_2 _ Hq).
    assert (Hqn : (q ^ e | n - 1)).
    { eapply Z.divide_trans; [|exact HF]. clear -Hqe. induction l as [|[q' e'] l IH]; [destruct Hqe|].
      cbn [factored fold_right]. destruct Hqe as [[= -> ->]|Hqe]; [apply Z.divide_factor_l|apply Z.divide_mul_r, IH, Hqe]. }
    assert (Hq1 : (q | n - 1)).
    { eapply Z.divide_trans; [|exact Hqn]. replace e with (Z.succ (e - 1)) by lia. rewrite Z.pow_succ_r by lia. apply Z.divide_factor_l. }
    apply (full_power (n - 1) d q e); auto; [lia|].
    intros [c Hcq]. specialize (Hg q e Hqe).
    assert (0 <= (n - 1) / q) by (apply Z.div_pos; lia). assert (0 <= c) by nia.
    assert (Hbad : cong r (a ^ ((n - 1) / q)) 1) by (rewrite Hcq, Z.mul_comm; apply cong_pow_1; auto; lia).
    assert (Hr1 : (r | 1)) by (rewrite <- Hg; apply Z.gcd_greatest; auto).
    apply Z.divide_pos_le in Hr1; lia. }
  assert (HFr : (factored l | r - 1)) by (eapply Z.divide_trans; eauto).
  assert (HF0 : 0 < factored l).
  { clear -HP. induction l as [|[q e] l IH]; [cbn; lia|]. cbn [factored fold_right]. fold (factored l).
    destruct (HP q e (or_introl eq_refl)) as [Hq He]. pose proof (prime_ge_2 _ Hq).
    apply Z.mul_pos_pos; [apply Z.pow_pos_nonneg; cbn; lia|]. apply IH. intros; apply (HP q0 e0); now right. }
  apply Z.divide_pos_le in HFr; [|lia]. nia.
Qed.

(** ** Checking the hypotheses by computation *)
(** [k] and [mu] only serve to keep the intermediate results small: any quotient is sound. *)
Definition reduce (n k mu x : Z) : Z := x - Z.shiftr (Z.shiftr x (k - 8) * mu) (k + 32) * n.
Lemma reduce_spec n k mu x : cong n (reduce n k mu x) x.
Proof. unfold reduce. exists (- Z.shiftr (Z.shiftr x (k - 8) * mu) (k + 32)). ring. Qed.
Fixpoint powm (red : Z -> Z) (a : Z) (e : positive) : Z :=
  match e with
  | xH => a
  | xO e => let x := powm red a e in red (x * x)
  | xI e => let x := powm red a e in red (a * (x * x))
  end.
Lemma powm_spec n red a e : (forall x, cong n (red x) x) -> cong n (powm red a e) (a ^ Z.pos e).
Proof.
  intros Hred. induction e as [e IH|e IH|]; cbn [powm].
  - eapply cong_trans; [apply Hred|]. replace (Z.pos e~1) with (1 + (Z.pos e + Z.pos e)) by lia.
    rewrite !Z.pow_add_r, Z.pow_1_r by lia. apply cong_mul; [apply cong_refl|]. now apply cong_mul.
  - eapply cong_trans; [apply Hred|]. replace (Z.pos e~0) with (Z.pos e + Z.pos e) by lia.
    rewrite !Z.pow_add_r by lia. now apply cong_mul.
  - change (Z.pos 1) with 1. rewrite Z.pow_1_r. apply cong_refl.
Qed.
Definition zpowm (red : Z -> Z) (a e : Z) : Z := match e with Z.pos e => powm red a e | _ => 1 end.
Lemma zpowm_spec n red a e : (forall x, cong n (red x) x) -> 0 <= e -> cong n (zpowm red a e) (a ^ e).
Proof. intros Hr He. destruct e; [apply cong_refl|now apply powm_spec|lia]. Qed.

Fixpoint distinct (l : list Z) : bool :=
  match l with [] => true | x :: l => negb (existsb (Z.eqb x) l) && distinct l end.
Lemma distinct_NoDup l : distinct l = true -> NoDup l.
Proof.
  induction l as [|x l IH]; cbn; [constructor|]. rewrite andb_true_iff, negb_true_iff. intros [H1 H2].
  constructor; auto. intros Hx. assert (existsb (Z.eqb x) l = true) by (apply existsb_exists; exists x; split; [auto|apply Z.eqb_refl]). congruence.
Qed.
Definition pock (n a : Z) (q0 e0 : Z) (l : list (Z * Z)) : bool :=
  let k := Z.log2 n + 1 in
  let red := reduce n k (2 ^ (2 * k + 24) / n) in
  let F := factored ((q0, e0) :: l) in
  let x := zpowm red a ((n - 1) / q0) in
  (1 <? n) && distinct (q0 :: map fst l) && (0 <? e0) && forallb (fun qe => 0 <? snd qe) l &&
  ((n - 1) mod F =? 0) && (n <=? F * F) &&
  (zpowm (fun x => x mod n) x q0 mod n =? 1) && (Z.gcd (x - 1) n =? 1) &&
  forallb (fun qe => Z.gcd (zpowm red a ((n - 1) / fst qe) - 1) n =? 1) l.

Lemma factored_pos l : Forall prime (map fst l) -> (forall q e, In (q, e) l -> 0 < e) -> 0 < factored l.
Proof.
  induction l as [|[q e] l IH]; intros HP He; [cbn; lia|]. cbn [factored fold_right]. fold (factored l).
  inversion HP; subst. pose proof (prime_ge_2 _ H1). specialize (He q e (or_introl eq_refl)) as He0.
  apply Z.mul_pos_pos; [apply Z.pow_pos_nonneg; cbn in *; lia|]. apply IH; auto. intros; apply (He q0 e0); now right.
Qed.

Lemma gcd_cong n x y : cong n x y -> Z.gcd (x - 1) n = 1 -> Z.gcd (y - 1) n = 1.
Proof.
  intros [k Hk] Hg. rewrite Z.gcd_comm in Hg |- *.
  replace (y - 1) with (x - 1 + (- k) * n) by lia. now rewrite Z.gcd_add_mult_diag_r.
Qed.

Lemma pock_prime n a q0 e0 l : pock n a q0 e0 l = true -> Forall prime (q0 :: map fst l) -> prime n.
Proof.
  unfold pock. set (k := Z.log2 n + 1). set (red := reduce n k (2 ^ (2 * k + 24) / n)). cbv zeta.
  assert (Hred : forall x, cong n (red x) x) by (intros; apply reduce_spec). clearbody red. clear k.
  rewrite !andb_true_iff, !forallb_forall, !Z.ltb_lt, Z.leb_le, !Z.eqb_eq.
  intros ((((((((Hn & HD) & He0) & He) & HF) & HB) & H1) & Hg0) & Hg) HP.
  assert (He' : forall q e, In (q, e) ((q0, e0) :: l) -> 0 < e).
  { intros q e [[= <- <-]|Hqe]; [auto|]. apply Z.ltb_lt, (He _ Hqe). }
  assert (HP' : forall q e, In (q, e) ((q0, e0) :: l) -> prime q).
  { intros q e Hqe. rewrite Forall_forall in HP. apply HP. now apply (in_map fst) in Hqe. }
  pose proof (factored_pos ((q0, e0) :: l) HP He') as HF0.
  assert (HFd : (factored ((q0, e0) :: l) | n - 1)) by (apply Z.mod_divide; lia).
  assert (Hpos : forall q e, In (q, e) ((q0, e0) :: l) -> 0 <= (n - 1) / q).
  { intros q e Hqe. pose proof (prime_ge_2 _ (HP' _ _ Hqe)). apply Z.div_pos; lia. }
  assert (Hq0 : (n - 1) / q0 * q0 = n - 1).
  { pose proof (prime_ge_2 _ (HP' _ _ (or_introl eq_refl))). rewrite Z.mul_comm. symmetry. apply Z_div_exact_2; [lia|].
    apply Z.mod_divide; [lia|]. eapply Z.divide_trans; [|exact HFd]. cbn [factored fold_right].
    apply Z.divide_mul_l. unfold qpow; cbn [fst snd]. replace e0 with (Z.succ (e0 - 1)) by lia.
    rewrite Z.pow_succ_r by lia. apply Z.divide_factor_l. }
  pose proof (zpowm_spec n red a _ Hred (Hpos _ _ (or_introl eq_refl))) as K0.
  apply (pocklington n a ((q0, e0) :: l)); auto.
  - now apply distinct_NoDup.
  - intros q e Hqe. split; eauto.
  - pose proof (prime_ge_2 _ (HP' _ _ (or_introl eq_refl))).
    rewrite <- Hq0, Z.pow_mul_r by (try lia; apply (Hpos _ _ (or_introl eq_refl))).
    eapply cong_trans; [apply cong_sym, cong_pow; [lia|exact K0]|].
    eapply cong_trans; [apply cong_sym, (zpowm_spec n (fun x => x mod n)); [intros; apply cong_mod; lia|lia]|].
    eapply cong_trans; [apply cong_sym, (cong_mod n); lia|]. rewrite H1. apply cong_refl.
  - intros q e [[= <- <-]|Hqe]; [eapply gcd_cong; eauto|].
    specialize (Hg _ Hqe). apply Z.eqb_eq in Hg. cbn [fst] in Hg. eapply gcd_cong; [|exact Hg].
    apply zpowm_spec; auto. apply (Hpos q e). now right.
Qed.
