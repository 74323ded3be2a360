(** The hashing circuits with the constraints of the real gadget. *)
From Coq Require Import ZArith Bool String List Lia ZifyBool ZifyNat Setoid Morphisms.
From Verif.Model Require Import Base Sha256 CS Bellpepper Util Poly Bignat Ints Median Difficulty HeaderStep ShaGadget RealHash.
From Verif.Spec Require Import Spec SpecHeader SpecSha SpecWires.
From Verif.Proofs Require Import Field Wp Lc Arith Convert Limbs Owp Pwp BitNum BoolP BignatEq MedianP MedianV Shp TopBignat1 TopGadget TopMedian DifficultyP TopDifficulty HashP HeaderInts HeaderBytes Panics HeaderPanics HeaderP HeaderW Ewp ShaBits ShaP ShaInst.
Import ListNotations.
Local Open Scope string_scope.
Local Open Scope Z_scope.
Local Open Scope list_scope.

(** ** From knowledge to a given assignment *)
Section General.
Context {E : Env}.
Lemma ewp_hwp {A} (m : prog A) : forall (R : known) (Q : known -> A -> Prop) rho, R rho -> ewp Honest R m Q ->
  hwp rho m (fun a => exists R' : known, R' rho /\ Q R' a).
Proof.
  induction m as [a0|e| |inp nm w k IH|nm c k IH|nm k IH|k IH]; intros R Q rho HR H; cbn [ewp hwp] in *; try tauto; eauto.
  - destruct H as (y & Hy & Hk). exists y. split; [auto|]. intros x Hx. apply (IH x (Some y) (fixed R x y)); [split; auto|]. apply Hk. reflexivity.
  - destruct H as [Hc Hk]. split; eauto.
Qed.

Lemma run_split {A B} wit (m : prog A) (f : A -> prog B) s b s' : run wit (bind m f) s = (Ok b, s') ->
  exists a s1, run wit m s = (Ok a, s1) /\ run wit (f a) s1 = (Ok b, s').
Proof. rewrite run_bind. destruct (run wit m s) as [[a|?|] s1] eqn:Hm; try discriminate. eauto. Qed.
Lemma run_unwrap {A} wit (m : prog A) : forall s a s', run wit (unwrap_prog m) s = (Ok a, s') -> run wit m s = (Ok a, s').
Proof.
  induction m as [a0|e| |inp nm w k IH|nm c k IH|nm k IH|k IH]; intros s a s' Hr; cbn [unwrap_prog run] in *; try discriminate; auto.
  destruct wit; [destruct w as [v|e|]; cbn [unwrap_res] in Hr; try discriminate|]; auto.
Qed.
Lemma run_ns_inv {A} wit nm (m : prog A) s a s' : run wit (ns nm m) s = (Ok a, s') ->
  exists s1, run wit m (push_ns nm s) = (Ok a, s1) /\ s' = pop_ns s1.
Proof.
  cbn [ns run]. intros H. apply run_split in H. destruct H as (a1 & s1 & H1 & H2). cbn [run] in H2. injection H2 as <- <-. eauto.
Qed.

Lemma run_same_on {A} wit (m : prog A) : forall s a s' r1 r2, run wit m s = (a, s') -> same_on s' r1 r2 -> same_on s r1 r2.
Proof.
  induction m as [a0|e| |inp nm w k IH|nm c k IH|nm k IH|k IH]; intros s a s' r1 r2 Hr Hs; cbn [run] in Hr.
  - injection Hr as <- <-. exact Hs.
  - injection Hr as <- <-. exact Hs.
  - injection Hr as <- <-. exact Hs.
  - destruct wit; [destruct w as [v|e|]|].
    + eapply IH in Hr; [|exact Hs]. apply same_on_push in Hr. apply Hr.
    + injection Hr as <- <-. exact Hs.
    + injection Hr as <- <-. exact Hs.
    + eapply IH in Hr; [|exact Hs]. apply same_on_push in Hr. apply Hr.
  - eapply IH in Hr; [|exact Hs]. exact Hr.
  - eapply IH in Hr; [|exact Hs]. exact Hr.
  - eapply IH in Hr; [|exact Hs]. exact Hr.
Qed.

(** Which auxiliary variables a gadget allocates. *)
Fixpoint vwp {A} (n : nat) (m : prog A) (Q : nat -> A -> Prop) : Prop :=
  match m with
  | Ret a => Q n a
  | Fail _ => True
  | Crash => True
  | Alloc inp nm w k => inp = false /\ forall v, vwp (S n) (k (VAux n) v) Q
  | Enforce nm c k => vwp n k Q
  | Push nm k => vwp n k Q
  | Pop k => vwp n k Q
  end.
Lemma vwp_mono {A} (m : prog A) : forall n (Q R : nat -> A -> Prop), vwp n m Q -> (forall k a, Q k a -> R k a) -> vwp n m R.
Proof. induction m; cbn [vwp]; intros; eauto. destruct H0; split; eauto. Qed.
Lemma vwp_bind {A B} (m : prog A) (f : A -> prog B) Q : forall n, vwp n m (fun k a => vwp k (f a) Q) -> vwp n (bind m f) Q.
Proof. induction m; cbn [vwp bind]; intros; eauto. destruct H0; split; eauto. Qed.
Lemma vwp_ns {A} nm (m : prog A) n Q : vwp n m Q -> vwp n (ns nm m) Q.
Proof. intros H. cbn [ns vwp]. apply vwp_bind. eapply vwp_mono; [exact H|]. cbn [vwp]. auto. Qed.
Lemma vwp_unwrap {A} (m : prog A) Q : forall n, vwp n m Q -> vwp n (unwrap_prog m) Q.
Proof. induction m; cbn [vwp unwrap_prog]; intros; eauto. destruct H0; split; eauto. Qed.
Lemma vwp_mapM {A B} (f : A -> prog B) c (P : nat -> A -> B -> Prop) :
  (forall n a, vwp n (f a) (fun k b => k = (n + c)%nat /\ P n a b)) ->
  forall l n (Q : nat -> list B -> Prop),
  (forall bs, Forall2 (fun p b => P (n + c * fst p)%nat (snd p) b) (combine (seq 0 (List.length l)) l) bs -> Q (n + c * List.length l)%nat bs) ->
  vwp n (mapM f l) Q.
Proof.
  intros Hf. induction l as [|a l IH]; intros n Q HQ; cbn [mapM vwp].
  - replace n with (n + c * List.length (@nil A))%nat by (cbn; lia). apply HQ. constructor.
  - apply vwp_bind. eapply vwp_mono; [apply Hf|]. intros k b [-> Hb]. apply vwp_bind. apply IH. intros bs Hbs. cbn [vwp].
    replace (n + c + c * List.length l)%nat with (n + c * List.length (a :: l))%nat by (cbn [List.length]; lia). apply HQ.
    cbn [List.length seq combine]. constructor; [cbn [fst snd]; now replace (n + c * 0)%nat with n by lia|].
    rewrite <- seq_shift. clear -Hbs. revert bs Hbs. generalize (seq 0 (List.length l)). intros idx. revert idx.
    induction l as [|x l IH]; intros idx bs Hbs.
    + destruct idx; cbn [map combine] in *; inversion Hbs; constructor.
    + destruct idx as [|i idx]; cbn [map combine] in *; inversion Hbs; subst; constructor; auto. cbn [fst snd] in *.
      now replace (n + c * S i)%nat with (n + c + c * i)%nat by lia.
Qed.
Lemma vwp_run {A} wit (m : prog A) : forall s (Q : nat -> A -> Prop) a s', vwp (List.length (st_aux s)) m Q -> run wit m s = (Ok a, s') -> Q (List.length (st_aux s')) a.
Proof.
  induction m as [a0|e| |inp nm w k IH|nm c k IH|nm k IH|k IH]; intros s Q a s' H Hr; cbn [vwp run] in *; try discriminate.
  - injection Hr as <- <-. exact H.
  - destruct H as [-> Hk].
    assert (L : forall v, List.length (st_aux (push_var false nm v s)) = S (List.length (st_aux s))) by (intros v; cbn [push_var st_aux]; rewrite app_length; cbn [List.length]; lia).
    destruct wit; [destruct w; try discriminate|]; (eapply IH; [rewrite L; apply Hk|exact Hr]).
  - apply (IH (push_con nm c s) Q a s'); [exact H|exact Hr].
  - apply (IH (push_ns nm s) Q a s'); [exact H|exact Hr].
  - apply (IH (pop_ns s) Q a s'); [exact H|exact Hr].
Qed.

Lemma words_vwp pre ws n : vwp n (words_to_bits pre ws) (fun k r => k = (n + 64 * List.length ws)%nat /\
  Forall2 (fun b x => exists v, b = BIs (mkAB x v)) r (word_vars n (List.length ws))).
Proof.
  unfold words_to_bits. apply vwp_bind.
  eapply (vwp_mapM _ 64 (fun m p bs => Forall2 (fun b x => exists v, b = BIs (mkAB x v)) bs (rev (map (fun i => VAux (m + i)) (seq 0 64))))).
  - intros m p. apply vwp_bind. apply vwp_unwrap, vwp_ns. unfold u64_into_boolean_vec_le.
    eapply (vwp_mapM _ 1 (fun m i b => exists v, b = BIs (mkAB (VAux m) v))).
    + intros m1 i. apply vwp_bind, vwp_ns. unfold ab_alloc. cbn [alloc bind vwp enforce]. split; [reflexivity|]. intros v. split; [lia|eauto].
    + intros bs H. cbn [vwp]. split; [rewrite seq_length; lia|]. apply F2_rev. rewrite seq_length in H.
      clear -H. revert H. generalize 64%nat. intros c H.
      assert (G : forall c j bs, Forall2 (fun (p : nat * nat) b => exists v, b = BIs (mkAB (VAux (m + 1 * fst p)) v)) (combine (seq j c) (seq j c)) bs ->
        Forall2 (fun b x => exists v, b = BIs (mkAB x v)) bs (map (fun i => VAux (m + i)) (seq j c))).
      { clear. induction c as [|c IH]; intros j bs H; cbn [seq combine map] in *; inversion H; subst; constructor; auto.
        cbn [fst] in *. now rewrite Nat.mul_1_l in *. }
      apply G. exact H.
  - intros bss H. cbn [vwp]. rewrite combine_length, seq_length, Nat.min_id in *. split; [reflexivity|]. unfold word_vars.
    assert (G : forall (ps : list (nat * (nat * Z))) bss, Forall2 (fun p bs => Forall2 (fun b x => exists v, b = BIs (mkAB x v)) bs
         (rev (map (fun i => VAux (n + 64 * fst p + i)) (seq 0 64)))) ps bss ->
       Forall2 (fun b x => exists v, b = BIs (mkAB x v)) (List.concat bss) (flat_map (fun j => rev (map (fun i => VAux (n + 64 * j + i)) (seq 0 64))) (map fst ps))).
    { clear. intros ps bss H. induction H as [|p bs ps bss Hb H IH]; [constructor|]. cbn [List.concat flat_map map]. apply Forall2_app; auto. }
    apply G in H. replace (map fst (combine (seq 0 (List.length ws)) (combine (seq 0 (List.length ws)) ws))) with (seq 0 (List.length ws)) in H; [exact H|].
    clear. generalize 0%nat at 1 2. generalize 0%nat. induction ws as [|w ws IH]; intros a b; cbn [List.length seq combine map fst]; f_equal; auto.
Qed.
Context {W : Wf E}.

(** A comparison of an allocated bit with a bit of any form. *)
Lemma ignore_any_run wit nm a b s : is_is a -> exists s', run wit (ignore_err (ns nm (bool_enforce_equal a b))) s = (Ok tt, s') /\
  st_in s' = st_in s /\ st_aux s' = st_aux s /\
  forall r, sat r s' <-> sat r s /\ feval r (bool_lc a 1) = feval r (bool_lc b 1).
Proof.
  destruct a as [a|a|a]; try contradiction. intros _. destruct b as [b|b|[|]]; (eexists; split; [reflexivity|]; split; [reflexivity|]; split; [reflexivity|]; intros r; rewrite sat_pop, sat_push_con; change (sat r (push_ns nm s)) with (sat r s)).
  - rewrite eq_con. tauto.
  - rewrite eq_con. tauto.
  - rewrite eq_con. change (bool_lc (BConst true) 1) with (lc_var ONE). split; intros [H1 H2]; split; auto.
  - assert (X : forall l, csat r (R1 lc_zero lc_zero l) <-> feval r l = feval r lc_zero).
    { intros l. rewrite csat_R1. change (lc_eval r lc_zero) with 0. unfold feval. change (lc_eval r lc_zero) with 0. rewrite <- eqp_eq. rewrite Z.mul_0_l. split; intros H; now symmetry. }
    rewrite X. change (bool_lc (BConst false) 1) with lc_zero. tauto.
Qed.
Lemma compare_any wit : forall l n s, Forall (fun p => is_is (fst p)) l ->
  exists s', run wit (iterM (fun p => ignore_err (ns (Nmi "bit " (fst p) "") (bool_enforce_equal (fst (snd p)) (snd (snd p)))))
    (combine (seq n (List.length l)) l)) s = (Ok tt, s') /\ st_in s' = st_in s /\ st_aux s' = st_aux s /\
  forall r, sat r s' <-> sat r s /\ Forall (fun p => feval r (bool_lc (fst p) 1) = feval r (bool_lc (snd p) 1)) l.
Proof.
  induction l as [|[a b] l IH]; intros n s HF.
  - exists s. cbn. split; auto. split; auto. split; auto. intros r. split; [|tauto]. intros H. split; auto.
  - inversion HF as [|? ? Ha HF']; subst. cbn [List.length seq combine iterM fst snd] in *.
    destruct (ignore_any_run wit (Nmi "bit " n "") a b s Ha) as (s1 & R1 & I1 & A1 & S1).
    destruct (IH (S n) s1 HF') as (s2 & R2 & I2 & A2 & S2). exists s2.
    rewrite (run_bind_ok _ _ _ _ _ _ R1). split; [exact R2|]. split; [congruence|]. split; [congruence|].
    intros r. rewrite S2, S1, Forall_cons_iff. cbn [fst snd]. tauto.
Qed.
Lemma combine_first h (o : list Boolean) : Forall is_is h -> Forall (fun p => is_is (fst p)) (combine h o).
Proof.
  intros Hh. apply Forall_forall. intros [a b] Hin. pose proof (in_combine_l _ _ _ _ Hin). rewrite Forall_forall in Hh. cbn [fst]. auto.
Qed.

(** Bits of words under any satisfying assignment. *)
Lemma words_swp rho pre ws : rho ONE = 1 -> swp Any rho (words_to_bits pre ws) (fun r => exists vs, Forall2 (wire_bool rho) r vs).
Proof.
  intros one. unfold words_to_bits. apply swp_bind.
  eapply (swp_mapM _ _ _ (fun _ bs => exists vs, Forall2 (wire_bool rho) bs vs)).
  - intros p _. apply swp_bind, swp_unwrap, swp_ns. unfold u64_into_boolean_vec_le.
    eapply (swp_mapM _ _ _ (fun _ b => exists v, wire_bool rho b v)).
    + intros i _. apply swp_bind, swp_ns. eapply swp_mono; [apply ab_alloc_swp; auto|]. intros b (_ & x & Hx & _). cbn [swp]. eauto.
    + intros bs H. cbn [swp]. assert (G : exists vs, Forall2 (wire_bool rho) bs vs).
      { clear -H. induction H as [|i b l bs [v Hv] H [vs IH]]; [exists []; constructor|]. exists (v :: vs). constructor; auto. }
      destruct G as [vs G]. exists (rev vs). now apply F2_rev.
  - intros bss H. cbn [swp]. clear -H. induction H as [|p bs l bss [v Hv] H [vs IH]]; [exists []; constructor|].
    exists (v ++ vs). cbn [List.concat]. now apply Forall2_app.
Qed.
End General.

(** ** What is asked of the hash gadget *)
Section By.
Context {E : Env} {W : Wf E}.
Variable sha : list Boolean -> prog (list Boolean).
Hypothesis SH : forall rho ins vs, rho ONE = 1 -> (List.length ins mod 8 = 0)%nat -> Forall2 (wire_bool rho) ins vs -> map bool_val ins = map Some vs ->
  hwp rho (sha ins) (fun o => Forall2 (wire_bool rho) o (sha256 vs) /\ map bool_val o = map Some (sha256 vs)).
Hypothesis SS : forall rho ins vs, rho ONE = 1 -> (List.length ins mod 8 = 0)%nat -> Forall2 (wire_bool rho) ins vs ->
  swp Any rho (sha ins) (fun o => Forall2 (wire_bool rho) o (sha256 vs)).
Hypothesis SX : forall wit ins vs s outs s' rho0, good_for rho0 s ->
  Forall2 (fun b v => carries_for rho0 s (bool_lc b 1) (Z.b2z v)) ins vs -> run wit (sha ins) s = (Ok outs, s') ->
  exists rho, same_on s rho rho0 /\ good_for rho s' /\ Forall2 (fun b v => carries_for rho s' (bool_lc b 1) (Z.b2z v)) outs (sha256 vs).

Lemma sha_u rho nm ins vs : rho ONE = 1 -> (List.length ins mod 8 = 0)%nat -> Forall2 (wire_bool rho) ins vs -> map bool_val ins = map Some vs ->
  hwp rho (unwrap_prog (ns nm (sha ins))) (fun o => Forall2 (wire_bool rho) o (sha256 vs) /\ map bool_val o = map Some (sha256 vs)).
Proof. intros. apply hwp_unwrap, hwp_ns. now apply SH. Qed.
Lemma len8 (bs : list Boolean) (P : Boolean -> bool -> Prop) vs : Forall2 P bs (sha256 vs) -> (List.length bs mod 8 = 0)%nat.
Proof. intros H. rewrite (Forall2_length _ _ _ H), sha256_length. reflexivity. Qed.

(** *** The previous hash *)
Definition prefix_by (blk hsh : list Z) : prog (list Boolean * list Boolean) :=
  let! hash_vec := words_to_bits "dummy " hsh in
  let! preimage_vec := words_to_bits "dummy2 " blk in
  let! out_sha256 := unwrap_prog (ns (Nm "SHA 256") (sha preimage_vec)) in
  let! out := unwrap_prog (ns (Nm "SHA 256d") (sha out_sha256)) in
  Ret (hash_vec, out).
Lemma prefix_by_run wit blk hsh s : run wit (check_prev_hash_by sha blk hsh) s = run wit (bind (prefix_by blk hsh) compare_bits) s.
Proof. unfold check_prev_hash_by, prefix_by. do 4 (rewrite run_assoc; apply run_ext; clear s; intros ? s). reflexivity. Qed.

Lemma by_prev_iff blk hsh s : good s -> exists s', run true (check_prev_hash_by sha blk hsh) s = (Ok tt, s') /\
  (sat (asg s') s' <-> firstn 256 (words_bits hsh) = firstn (64 * List.length hsh) (sha256d (words_bits blk))).
Proof.
  intros G. rewrite prefix_by_run.
  destruct (hwp_run (prefix_by blk hsh) s (fun rho p => bits_are rho (fst p) (words_bits hsh) /\ Forall2 (wire_bool rho) (snd p) (sha256d (words_bits blk))) G)
    as ([h o] & s1 & Hr & Hg & _ & HQ).
  { intros rho Hag one. unfold prefix_by. hstep. eapply hwp_mono; [apply words_hwp; auto|]. cbv beta. intros hb [HW _].
    hstep. eapply hwp_mono; [apply words_hwp; auto|]. cbv beta. intros bb [BW BV].
    assert (HL8 : (List.length bb mod 8 = 0)%nat) by (rewrite (bits_len _ _ _ BW), words_bits_length; apply mod8_64).
    hstep. eapply hwp_mono; [apply (sha_u rho _ bb (words_bits blk)); auto; apply BW|]. intros o1 [O1 V1].
    hstep. eapply hwp_mono; [apply (sha_u rho _ o1 (sha256 (words_bits blk))); auto; eapply len8; exact O1|]. intros o2 [O2 V2].
    hstep. cbn [fst snd]. split; assumption. }
  cbn [fst snd] in HQ. destruct (HQ _ (agree_asg s1)) as [[_ Hh] _].
  destruct (compare_any true _ 0 s1 (combine_first h o Hh)) as (s2 & R2 & I2 & A2 & S2).
  exists s2. rewrite (run_bind_ok _ _ _ _ _ _ Hr). split; [exact R2|].
  assert (Ha : agree s1 (asg s2)) by (eapply run_agree; [exact R2|reflexivity|apply agree_asg]).
  rewrite S2. destruct (HQ _ Ha) as [[Wh _] Wo]. rewrite (combine_prefix _ _ _ _ _ Wh Wo).
  unfold sha256d at 1. rewrite sha256_length, words_bits_length. split; [intros [_ H]; exact H|]. intros H. split; [exact (Hg _ Ha)|exact H].
Qed.

Lemma by_prev_sound wit blk hsh s s' rho : run wit (check_prev_hash_by sha blk hsh) s = (Ok tt, s') -> sat rho s' ->
  let n := List.length (st_aux s) in
  exists hv bv, map (fun x => feval rho (lc_var x)) (word_vars n (List.length hsh)) = map Z.b2z hv /\
    map (fun x => feval rho (lc_var x)) (word_vars (n + 64 * List.length hsh) (List.length blk)) = map Z.b2z bv /\
    firstn 256 hv = firstn (64 * List.length hsh) (sha256d bv).
Proof.
  intros Hr Hs n. rewrite prefix_by_run in Hr. apply run_split in Hr. destruct Hr as ([h o] & s1 & H1 & H2).
  unfold prefix_by in H1. apply run_split in H1. destruct H1 as (hb & t1 & K1 & H1). apply run_split in H1. destruct H1 as (bb & t2 & K2 & H1).
  pose proof (vwp_run _ _ _ _ _ _ (words_vwp "dummy " hsh (List.length (st_aux s))) K1) as [N1 V1]. fold n in N1, V1.
  pose proof (vwp_run _ _ _ _ _ _ (words_vwp "dummy2 " blk (List.length (st_aux t1))) K2) as [N2 V2]. rewrite N1 in N2, V2.
  assert (KP : run wit (prefix_by blk hsh) s = (Ok (h, o), s1)) by (unfold prefix_by; rewrite (run_bind_ok _ _ _ _ _ _ K1), (run_bind_ok _ _ _ _ _ _ K2); exact H1).
  assert (Eh : h = hb).
  { apply run_split in H1. destruct H1 as (o1 & t3 & _ & H1). apply run_split in H1. destruct H1 as (o2 & t4 & _ & H1). cbn [run] in H1. congruence. }
  subst hb.
  assert (Fh : Forall is_is h) by (clear -V1; induction V1 as [|b x l l' [v ->] H IH]; constructor; auto; exact I).
  destruct (compare_any wit _ 0 s1 (combine_first h o Fh)) as (s2 & R2 & _ & _ & S2). unfold compare_bits in H2. cbn [fst snd] in H2. rewrite R2 in H2. injection H2 as <-.
  apply S2 in Hs. destruct Hs as [Hs HC]. pose proof (proj1 Hs) as one.
  assert (T3 : sat rho t1 /\ sat rho t2).
  { assert (M : forall A (m : prog A) t a t', run wit m t = (Ok a, t') -> sat rho t' -> sat rho t).
    { intros A m t a t' Hm Ht. eapply run_sat; eauto. }
    assert (X2 : sat rho t2) by (eapply M; [exact H1|exact Hs]). split; [|exact X2]. eapply M; [exact K2|exact X2]. }
  destruct (swp_run_any _ _ _ _ _ _ _ K1 (proj1 T3) (words_swp rho "dummy " hsh one)) as [hv Hv].
  destruct (swp_run_any _ _ _ _ _ _ _ K2 (proj2 T3) (words_swp rho "dummy2 " blk one)) as [bv Bv].
  exists hv, bv.
  assert (X : forall l vs xs, Forall2 (wire_bool rho) l vs -> Forall2 (fun b x => exists v, b = BIs (mkAB x v)) l xs -> map (fun x => feval rho (lc_var x)) xs = map Z.b2z vs).
  { clear -W. intros l vs xs H. revert xs. induction H as [|b v l vs Hb H IH]; intros xs HX; inversion HX as [|? x ? xs' [o ->] HX']; subst; [reflexivity|]. cbn [map]. f_equal; auto. now apply wire_feval in Hb. }
  split; [eapply X; eauto|]. split; [eapply X; eauto|].
  assert (LV : forall k m, List.length (word_vars m k) = (64 * k)%nat).
  { clear. intros k m. unfold word_vars. rewrite flat_map_concat_map. assert (L : List.length (seq 0 k) = k) by apply seq_length. revert L. generalize (seq 0 k). intros l. revert k.
    induction l as [|j l IH]; intros k L; cbn [map List.concat List.length] in *; [lia|]. rewrite app_length, rev_length, map_length, seq_length, (IH (pred k)) by lia. lia. }
  assert (L1 : List.length hv = (64 * List.length hsh)%nat) by (rewrite <- (Forall2_length _ _ _ Hv), (Forall2_length _ _ _ V1); apply LV).
  assert (L2 : (List.length bb mod 8 = 0)%nat) by (rewrite (Forall2_length _ _ _ V2), LV; apply mod8_64).
  assert (Ho : Forall2 (wire_bool rho) o (sha256d bv)).
  { apply (swp_run_any _ _ _ _ _ _ (fun p => Forall2 (wire_bool rho) (snd p) (sha256d bv)) H1 Hs).
    apply swp_bind, swp_unwrap, swp_ns. eapply swp_mono; [apply (SS rho bb bv one L2 Bv)|]. intros o1 O1.
    apply swp_bind, swp_unwrap, swp_ns. eapply swp_mono; [apply (SS rho o1 _ one (len8 _ _ _ O1) O1)|]. intros o2 O2. exact O2. }
  pose proof (proj1 (combine_prefix rho _ _ _ _ Hv Ho) HC) as K. unfold sha256d in K at 1. rewrite sha256_length, L1 in K. exact K.
Qed.

(** Extensions of a partial assignment, step by step. *)
Lemma sha_step wit nm ins vs s outs s' rho0 : good_for rho0 s ->
  Forall2 (fun b v => carries_for rho0 s (bool_lc b 1) (Z.b2z v)) ins vs -> run wit (unwrap_prog (ns nm (sha ins))) s = (Ok outs, s') ->
  exists rho, same_on s rho rho0 /\ good_for rho s' /\ Forall2 (fun b v => carries_for rho s' (bool_lc b 1) (Z.b2z v)) outs (sha256 vs).
Proof.
  intros G Hi Hr. apply run_unwrap, run_ns_inv in Hr. destruct Hr as (s1 & Hr & ->).
  apply (SX wit ins vs (push_ns nm s) outs s1 rho0); auto.
Qed.
Lemma carry_later wit {A} (m : prog A) s a s' rho rho0 l v : run wit m s = (Ok a, s') -> same_on s rho rho0 -> carries_for rho0 s l v -> carries_for rho s' l v.
Proof.
  intros Hr Hs Hc r Hr1 one. apply Hc; auto. eapply same_on_trans; [|exact Hs]. eapply run_same_on; eauto.
Qed.
Lemma words_step wit pre ws bss s bits s' rho0 : good_for rho0 s -> whole (md_of wit) ws bss -> run wit (words_to_bits pre ws) s = (Ok bits, s') ->
  exists rho, same_on s rho rho0 /\ good_for rho s' /\ Forall is_is bits /\
    Forall2 (fun b v => carries_for rho s' (bool_lc b 1) (Z.b2z v)) bits (List.concat bss).
Proof.
  intros G Hw Hr.
  destruct (awp_run wit (words_to_bits pre ws) s rho0 (map Z.b2z (flat_map (@rev bool) bss)) (fun rho r => bits_are rho r (List.concat bss)) bits s' G) as (rho & K1 & K2 & K3); auto.
  { intros rho _ one. eapply awp_mono; [apply words_to_bits_awp; auto; exact Hw|]. intros r [H _]. exact H. }
  exists rho. split; [exact K1|]. split; [exact K2|]. destruct (K3 rho (same_on_refl _ _)) as [_ HI]. split; [exact HI|].
  clear -K3 W HI. assert (K4 : forall r, same_on s' r rho -> Forall2 (wire_bool r) bits (List.concat bss)) by (intros r Hr; apply (K3 r Hr)). clear K3.
  pose proof (K4 rho (same_on_refl _ _)) as F. revert K4 HI. induction F as [|b v l vs Hb F IH]; intros K4 HI; constructor.
  - intros r Hr _. specialize (K4 r Hr). inversion K4; subst. now apply wire_feval.
  - apply IH; [|now inversion HI]. intros r Hr. specialize (K4 r Hr). now inversion K4.
Qed.

Lemma by_prev_free wit blk hsh s s' rho0 : good_for rho0 s ->
  run wit (check_prev_hash_by sha blk hsh) s = (Ok tt, s') -> exists rho, same_on s rho rho0 /\ sat rho s'.
Proof.
  intros G Hr. rewrite prefix_by_run in Hr. apply run_split in Hr. destruct Hr as ([h o] & s5 & Hr & HC).
  unfold prefix_by in Hr. apply run_split in Hr. destruct Hr as (hb & s1 & R1 & Hr). apply run_split in Hr. destruct Hr as (bb & s2 & R2 & Hr).
  apply run_split in Hr. destruct Hr as (o1 & s3 & R3 & Hr). apply run_split in Hr. destruct Hr as (o2 & s4 & R4 & Hr). cbn [run] in Hr. injection Hr as -> -> ->.
  set (md := md_of wit). assert (Hmd : md <> Honest) by (unfold md; destruct wit; discriminate).
  set (bb0 := pad_bits (List.length blk) []). set (d := sha256d (List.concat bb0)). set (hb0 := pad_bits (List.length hsh) d).
  assert (HL : List.length d = 256%nat) by apply sha256_length.
  assert (Wb : whole md blk bb0) by (apply pad_bits_whole; auto). assert (Wh : whole md hsh hb0) by (apply pad_bits_whole; auto).
  destruct (words_step wit _ _ _ _ _ _ _ G Wh R1) as (r1 & S1 & G1 & I1 & C1).
  destruct (words_step wit _ _ _ _ _ _ _ G1 Wb R2) as (r2 & S2 & G2 & _ & C2).
  destruct (sha_step wit _ _ _ _ _ _ _ G2 C2 R3) as (r3 & S3 & G3 & C3).
  destruct (sha_step wit _ _ _ _ _ _ _ G3 C3 R4) as (r4 & S4 & G4 & C4).
  destruct (compare_any wit _ 0 s5 (combine_first h o I1)) as (s6 & R6 & _ & _ & S6).
  unfold compare_bits in HC. cbn [fst snd] in HC. rewrite R6 in HC. injection HC as <-.
  pose proof (proj1 (G4 r4 (same_on_refl _ _))) as one.
  exists r4. split.
  - eapply same_on_trans; [eapply run_same_on; [exact R1|]; eapply same_on_trans; [eapply run_same_on; [exact R2|]; eapply same_on_trans; [eapply run_same_on; [exact R3|exact S4]|exact S3]|exact S2]|exact S1].
  - apply S6. split; [exact (G4 r4 (same_on_refl _ _))|].
    assert (Ch : Forall2 (wire_bool r4) h (List.concat hb0)).
    { clear -C1 S2 S3 S4 R2 R3 R4 one W. induction C1 as [|b v l vs Hb C IH]; constructor; auto. apply wire_feval, Hb; [|exact one].
      eapply same_on_trans; [eapply run_same_on; [exact R2|]; eapply same_on_trans; [eapply run_same_on; [exact R3|exact S4]|exact S3]|exact S2]. }
    assert (Co : Forall2 (wire_bool r4) o d).
    { unfold d, sha256d. clear -C4 one W. induction C4 as [|b v l vs Hb C IH]; constructor; auto. apply wire_feval, Hb; [apply same_on_refl|exact one]. }
    apply (combine_prefix _ _ _ _ _ Ch Co). apply (prefix_nth false). intros i Hi _. rewrite (whole_length _ _ _ Wh) in Hi. apply pad_bits_nth. lia.
Qed.

(** *** Proof of work *)
Lemma by_pow_hwp rho h b T v : rho ONE = 1 -> header_ok h -> (225 < NUM_BITS)%nat -> split_bytes (nth 9 h 0 / 2 ^ 32) = Ok b -> target_closure b = Ok T -> canon T ->
  digest_scalar (sha256d (words_bits h)) = Ok v -> pow_ok v T = true ->
  hwp rho (stage_pow_by sha h) (fun p => fst (fst p) = b /\ is_an rho (snd (fst p)) T /\ is_an rho (snd p) v).
Proof.
  intros one H HN HB HT CT HS HP. assert (Cv : canon v) by (eapply digest_scalar_canon; exact HS).
  unfold stage_pow_by. do 2 hstep; [unfold idx; rewrite (nth_error_nth' h 0) by (rewrite (proj1 H); lia); reflexivity|].
  do 2 hstep; [unfold u64_shr; apply shr_in; lia|]. do 2 hstep; [exact HB|].
  hstep. eapply hwp_mono; [apply an_u_ok; [exact HT|exact CT]|]. intros target Htgt.
  hstep. eapply hwp_mono; [apply words_hwp; exact one|]. cbv beta. intros bits [HW HV].
  assert (HL8 : (List.length bits mod 8 = 0)%nat) by (rewrite (bits_len _ _ _ HW), words_bits_length; apply mod8_64).
  hstep. eapply hwp_mono; [apply (sha_u rho _ bits (words_bits h)); auto; apply HW|]. intros o1 [B1 V1].
  hstep. eapply hwp_mono; [apply (sha_u rho _ o1 (sha256 (words_bits h))); auto; eapply len8; exact B1|]. intros o2 [B2 V2].
  assert (HS2 : hash_scalar o2 = Ok v) by (rewrite (hash_scalar_eq o2 (sha256d (words_bits h)) V2); [exact HS|apply sha256_length]).
  hstep. eapply hwp_mono; [apply an_u_ok; [exact HS2|exact Cv]|]. intros hash Hh.
  do 3 hstep. eapply hwp_mono; [apply (less_than_hwp rho one hash target 224 v T _ Hh Htgt (zero_shift_high 224 ltac:(lia)) ltac:(lia))|]. cbv beta.
  change (Z.of_nat 224 + 2) with 226. change (Z.of_nat (1 + 224)) with 225. fold (pow_ok v T). rewrite HP. intros r [Hr _].
  hstep. eapply hwp_mono; [apply assert_hwp; exact Hr|]. intros _ _. hstep. cbn [fst snd]. split; [reflexivity|]. split; assumption.
Qed.
Lemma by_pow_panics rho h : rho ONE = 1 -> header_ok h -> (225 < NUM_BITS)%nat ->
  (forall b T v, split_bytes (nth 9 h 0 / 2 ^ 32) = Ok b -> target_closure b = Ok T -> digest_scalar (sha256d (words_bits h)) = Ok v -> canon T /\ pow_ok v T = false) ->
  owp rho (stage_pow_by sha h) (fun r => r = Panic).
Proof.
  intros one H HN HP. unfold stage_pow_by. unfold idx. rewrite (nth_error_nth' h 0) by (rewrite (proj1 H); lia). cbn [unwrap lift bind].
  unfold u64_shr. rewrite shr_in by lia. cbn [lift bind].
  assert (ND : forall (r : res Z), r = digest_scalar (sha256d (words_bits h)) -> (exists x, r = Ok x) \/ r = Panic).
  { intros r ->. unfold digest_scalar. destruct (_ <? _); [|destruct overflow_checks]; eauto. }
  destruct (split_bytes (nth 9 h 0 / 2 ^ 32)) as [b|e|] eqn:HB; [| |reflexivity].
  2:{ exfalso. exact (nerr_split _ _ HB). }
  cbn [lift bind]. destruct (target_closure b) as [T|e|] eqn:HT; [| |apply an_u_panic; reflexivity].
  2:{ exfalso. revert HT. unfold target_closure, u64_add, u64_shl, u64_sub, u128_shl, u64_mul, shl, amount, checked.
      repeat (match goal with |- context [if ?c then _ else _] => destruct c end; cbn [rbind]; try discriminate). }
  assert (Rest : forall (f : list Boolean -> prog (quirk_bytes * allocated_num * allocated_num)),
    (forall o2, map bool_val o2 = map Some (sha256d (words_bits h)) -> owp rho (f o2) (fun r => r = Panic)) ->
    owp rho (let! preimage := words_to_bits "dummy2 " h in
             let! out_sha256 := unwrap_prog (ns (Nm "SHA 256") (sha preimage)) in
             let! out := unwrap_prog (ns (Nm "SHA 256d") (sha out_sha256)) in f out) (fun r => r = Panic)).
  { intros f Hf. eapply owp_bind_ok; [apply words_hwp; exact one|]. cbv beta. intros bits [HW HV].
    assert (HL8 : (List.length bits mod 8 = 0)%nat) by (rewrite (bits_len _ _ _ HW), words_bits_length; apply mod8_64).
    eapply owp_bind_ok; [apply (sha_u rho _ bits (words_bits h)); auto; apply HW|]. intros o1 [B1 V1].
    eapply owp_bind_ok; [apply (sha_u rho _ o1 (sha256 (words_bits h))); auto; eapply len8; exact B1|]. intros o2 [B2 V2]. apply Hf. exact V2. }
  destruct (digest_scalar (sha256d (words_bits h))) as [v|e|] eqn:HS.
  - assert (CT : canon T) by (destruct (HP b T v); auto).
    eapply owp_bind_ok; [apply an_u_ok; [reflexivity|exact CT]|]. intros target Htgt. apply Rest. intros o2 V2.
    assert (HS2 : hash_scalar o2 = Ok v) by (rewrite (hash_scalar_eq o2 (sha256d (words_bits h)) V2); [exact HS|apply sha256_length]).
    assert (Cv : canon v) by (eapply digest_scalar_canon; exact HS).
    eapply owp_bind_ok; [apply an_u_ok; [exact HS2|exact Cv]|]. intros hash Hh.
    eapply owp_step; [apply (less_than_hwp rho one hash target 224 v T _ Hh Htgt (zero_shift_high 224 ltac:(lia)) ltac:(lia))|]. cbv beta.
    change (Z.of_nat 224 + 2) with 226. change (Z.of_nat (1 + 224)) with 225. fold (pow_ok v T). intros r [Hr _]. apply assert_owp. rewrite Hr. f_equal. now apply (HP b T v).
  - destruct (ND _ eq_refl) as [[x Hx]|Hx]; discriminate.
  - apply owp_skip. intros target. apply Rest. intros o2 V2.
    apply an_u_panic. rewrite (hash_scalar_eq o2 (sha256d (words_bits h)) V2); [exact HS|apply sha256_length].
Qed.

Lemma by_pow_iff h T s : good s -> header_ok h -> 2 ^ 228 <= modulus -> digest_int (sha256d (words_bits h)) < 2 ^ 255 ->
  (let? b := split_bytes (nth 9 h 0 / 2 ^ 32) in target_closure b) = Ok T ->
  ((exists p s', run true (stage_pow_by sha h) s = (Ok p, s') /\ good s' /\ an_at s' (snd (fst p)) T /\ an_at s' (snd p) (digest_int (sha256d (words_bits h)) mod modulus)) <->
   (digest_int (sha256d (words_bits h)) + 2 ^ 226 - T) mod modulus < 2 ^ 225) /\
  (~ (digest_int (sha256d (words_bits h)) + 2 ^ 226 - T) mod modulus < 2 ^ 225 -> fst (run true (stage_pow_by sha h) s) = Panic).
Proof.
  intros G H HP HH HT. assert (HN : (225 < NUM_BITS)%nat) by (apply num_bits_above; change (Z.of_nat 225) with 225; lia).
  assert (HP1 : 2 ^ 130 <= modulus) by lia. pose proof (decoded_range h T H HP1 HT) as RT. assert (CT : canon T) by (split; lia).
  destruct (split_bytes (nth 9 h 0 / 2 ^ 32)) as [b| |] eqn:HB; try discriminate HT. cbn [rbind] in HT.
  assert (HS : digest_scalar (sha256d (words_bits h)) = Ok (fmk (digest_int (sha256d (words_bits h))))).
  { unfold digest_scalar. now replace (digest_int (sha256d (words_bits h)) <? 2 ^ 255) with true by lia. }
  set (H0 := digest_int (sha256d (words_bits h))) in *.
  assert (HE : pow_ok (fmk H0) T = ((H0 + 2 ^ 226 - T) mod modulus <? 2 ^ 225)).
  { unfold pow_ok. f_equal. apply canon_eqp; [apply fsub_canon|apply fmk_canon|]. unfold fsub, fadd. rewrite !eqp_fmk. symmetry. apply eqp_fmk. }
  assert (HPan : ~ (H0 + 2 ^ 226 - T) mod modulus < 2 ^ 225 -> fst (run true (stage_pow_by sha h) s) = Panic).
  { intros HC. apply (owp_result _ s (fun r => r = Panic) G). intros rho Hag one. apply by_pow_panics; auto. intros b' T' v' E1 E2 E3.
    rewrite HB in E1. injection E1 as <-. rewrite HT in E2. injection E2 as <-. rewrite HS in E3. injection E3 as <-. split; auto. rewrite HE. lia. }
  split; [|exact HPan]. split.
  - intros (p & s' & Hr & _). destruct (Z.lt_ge_cases ((H0 + 2 ^ 226 - T) mod modulus) (2 ^ 225)) as [K|K]; auto. exfalso.
    assert (C : fst (run true (stage_pow_by sha h) s) = Panic) by (apply HPan; lia). rewrite Hr in C. discriminate C.
  - intros HC. destruct (hwp_run (stage_pow_by sha h) s (fun rho p => fst (fst p) = b /\ is_an rho (snd (fst p)) T /\ is_an rho (snd p) (fmk H0)) G) as (p & s' & Hr & Hg & HA & HQ).
    { intros rho Hag one. apply by_pow_hwp; auto. rewrite HE. lia. }
    exists p, s'. split; [exact Hr|]. split; [exact Hg|]. split; apply (is_an_at s); auto; intros rho Ha; apply (HQ rho Ha).
Qed.
Lemma by_pow_never h s : good s -> header_ok h -> 2 ^ 228 <= modulus -> digest_int (sha256d (words_bits h)) < 2 ^ 255 ->
  digest_int (sha256d (words_bits h)) < modulus - 2 ^ 226 -> fst (run true (stage_pow_by sha h) s) = Panic.
Proof.
  intros G H HP HH HB. assert (HN : (225 < NUM_BITS)%nat) by (apply num_bits_above; change (Z.of_nat 225) with 225; lia).
  pose proof (digest_top (sha256d (words_bits h)) (sha256_length _)) as [_ [HL _]].
  set (H0 := digest_int (sha256d (words_bits h))) in *.
  apply (owp_result _ s (fun r => r = Panic) G). intros rho Hag one. apply by_pow_panics; auto. intros b T v E1 E2 E3.
  assert (RT : 0 <= T < 2 ^ 128) by (apply (decoded_range h); auto; [lia|]; unfold decode_target; rewrite E1; exact E2).
  split; [split; lia|]. unfold digest_scalar in E3. fold H0 in E3. replace (H0 <? 2 ^ 255) with true in E3 by lia. injection E3 as <-.
  unfold pow_ok. replace (fsub (fadd (fmk H0) (fmk (2 ^ 226))) T) with (H0 + 2 ^ 226 - T); [lia|].
  symmetry. apply canon_eqp; [apply fsub_canon|split; lia|]. unfold fsub, fadd. rewrite !eqp_fmk. reflexivity.
Qed.

(** One number chosen at will. *)
Lemma an_step wit nm w y s a s' rho0 : good_for rho0 s -> run wit (an_u nm w) s = (Ok a, s') ->
  exists rho, same_on s rho rho0 /\ good_for rho s' /\ forall r, same_on s' r rho -> eqp (r (an_var a)) y.
Proof.
  intros G Hr. destruct (pwp_run wit (an_u nm w) s rho0 [y] (fun rho a => eqp (rho (an_var a)) y) a s' G) as (rho & H1 & H2 & H3); auto.
  - intros rho Hs one. unfold an_u. apply pwp_unwrap, pwp_ns, awp_pwp. apply an_alloc_awp with (Q := fun a => eqp (rho (an_var a)) y); [destruct wit; discriminate|].
    intros x v Hx _. cbn [an_var]. rewrite Hx. reflexivity.
  - exists rho. auto.
Qed.
Lemma by_pow_free wit h T y s b target hash s' rho0 : good_for rho0 s ->
  run wit (stage_pow_by sha h) s = (Ok (b, target, hash), s') -> canon T -> canon y ->
  exists rho, same_on s rho rho0 /\ sat rho s' /\ feval rho (lc_var (an_var target)) = T /\ feval rho (lc_var (an_var hash)) = y.
Proof.
  intros G Hr CT Cy. set (md := md_of wit). assert (Hmd : md <> Honest) by (unfold md; destruct wit; discriminate).
  set (bb := pad_bits (List.length h) []). assert (Wb : whole md h bb) by (apply pad_bits_whole; auto).
  unfold stage_pow_by in Hr. assert (LI : forall A (r : res A) t a t', run wit (lift r) t = (Ok a, t') -> t' = t).
  { intros A [x|e|] t a t' K; cbn [lift run] in K; congruence. }
  apply run_split in Hr. destruct Hr as (h9 & t1 & K1 & Hr). apply LI in K1. subst t1.
  apply run_split in Hr. destruct Hr as (nb & t1 & K1 & Hr). apply LI in K1. subst t1.
  apply run_split in Hr. destruct Hr as (b0 & t1 & K1 & Hr). apply LI in K1. subst t1.
  apply run_split in Hr. destruct Hr as (tg & s1 & R1 & Hr). apply run_split in Hr. destruct Hr as (bits & s2 & R2 & Hr).
  apply run_split in Hr. destruct Hr as (o1 & s3 & R3 & Hr). apply run_split in Hr. destruct Hr as (o2 & s4 & R4 & Hr).
  apply run_split in Hr. destruct Hr as (hh & s5 & R5 & Hr). apply run_split in Hr. destruct Hr as (r & s6 & R6 & Hr).
  apply run_split in Hr. destruct Hr as (u & s7 & R7 & Hr). cbn [run] in Hr. injection Hr as -> -> -> ->.
  destruct (an_step wit _ _ T _ _ _ _ G R1) as (r1 & S1 & G1 & E1).
  destruct (words_step wit _ _ _ _ _ _ _ G1 Wb R2) as (r2 & S2 & G2 & _ & C2).
  destruct (sha_step wit _ _ _ _ _ _ _ G2 C2 R3) as (r3 & S3 & G3 & C3).
  destruct (sha_step wit _ _ _ _ _ _ _ G3 C3 R4) as (r4 & S4 & G4 & C4).
  destruct (an_step wit _ _ y _ _ _ _ G4 R5) as (r5 & S5 & G5 & E5).
  destruct (pwp_run wit (unwrap_prog (ns (Nm "Is PoW consensus achieved?") (less_than hash target 224))) s5 r5 (cmp_aux true) (fun _ _ => True) r s6 G5) as (r6 & S6 & G6 & _); auto.
  { intros rho Hs one. apply pwp_unwrap, pwp_ns, awp_pwp. eapply awp_mono; [apply (less_than_awp rho one md hash target 224 true Hmd)|]. auto. }
  assert (S7 : s' = s6).
  { unfold assert_true in R7. apply run_split in R7. destruct R7 as (v & t & K & R7). apply LI in K. subst t. destruct v; cbn [assert run] in R7; congruence. }
  subst s6. assert (X5 : same_on s1 r6 r1).
  { eapply same_on_trans; [|exact S2]. eapply run_same_on; [exact R2|]. eapply same_on_trans; [|exact S3]. eapply run_same_on; [exact R3|].
    eapply same_on_trans; [|exact S4]. eapply run_same_on; [exact R4|]. eapply same_on_trans; [|exact S5]. eapply run_same_on; [exact R5|]. exact S6. }
  exists r6. split; [eapply same_on_trans; [eapply run_same_on; [exact R1|exact X5]|exact S1]|]. split; [apply G6, same_on_refl|].
  split; (apply feval_eqp; [assumption|rewrite lc_eval_var]); [apply E1, X5|apply E5, S6].
Qed.

Lemma by_synthesize_panics wit h z s : fst (run wit (synthesize_by sha [] h z) s) = Panic.
Proof.
  revert s. change (panics wit (synthesize_by sha [] h z)). unfold synthesize_by.
  apply panics_skip; [apply noerr_prev|]. intros p. apply panics_skip.
  { unfold stage_pow_by. apply noerr_bind; [apply noerr_lift, nerr_idx|]. intros h9. apply noerr_bind; [apply noerr_lift, nerr_shr|]. intros nb.
    apply noerr_bind; [apply noerr_lift, nerr_split|]. intros b. apply noerr_bind; [apply noerr_unwrap|]. intros tg.
    apply noerr_bind; [apply noerr_words|]. intros bits. apply noerr_bind; [apply noerr_unwrap|]. intros o1. apply noerr_bind; [apply noerr_unwrap|]. intros o2.
    apply noerr_bind; [apply noerr_unwrap|]. intros hh. apply noerr_bind; [apply noerr_unwrap|]. intros r. apply noerr_bind; [apply noerr_assert|]. intros u. apply noerr_ret. }
  intros [[b target] hash].
  apply panics_skip; [apply noerr_time|]. intros t. apply panics_skip; [apply noerr_work|]. intros w.
  apply panics_skip; [apply noerr_update|]. intros [[tc ct] st]. apply panics_out.
Qed.
End By.

(** ** The real gadget *)
Section Real.
Context {E : Env} {W : Wf E}.
Lemma F2_known rho ins vs : Forall2 (wire_bool rho) ins vs -> map bool_val ins = map Some vs -> Forall2 (eb Honest (fun r => r = rho)) ins vs.
Proof.
  intros H. induction H as [|b v ins vs Hb H IH]; intros HV; constructor.
  - split; [intros r ->; exact Hb|]. intros _. cbn [map] in HV. congruence.
  - apply IH. cbn [map] in HV. congruence.
Qed.
Lemma real_honest (HN : (64 <= NUM_BITS)%nat) rho ins vs : rho ONE = 1 -> (List.length ins mod 8 = 0)%nat -> Forall2 (wire_bool rho) ins vs -> map bool_val ins = map Some vs ->
  hwp rho (sha256_r1cs ins) (fun o => Forall2 (wire_bool rho) o (sha256 vs) /\ map bool_val o = map Some (sha256 vs)).
Proof.
  intros one L8 H HV. eapply hwp_mono; [apply (ewp_hwp (sha256_r1cs ins) (fun r => r = rho) (fun R' o => Forall2 (eb Honest R') o (sha256 vs)) rho eq_refl)|].
  - apply sha_ewp; auto; [intros r ->; exact one|]. now apply F2_known.
  - intros o (R' & HR & Ho). clear -Ho HR. split; induction Ho as [|b v o ws [H1 H2] H IH]; try constructor; auto. cbn [map]. rewrite IH. f_equal. auto.
Qed.
Lemma real_sound rho ins vs : rho ONE = 1 -> (List.length ins mod 8 = 0)%nat -> Forall2 (wire_bool rho) ins vs ->
  swp Any rho (sha256_r1cs ins) (fun o => Forall2 (wire_bool rho) o (sha256 vs)).
Proof. intros one L8 H. now apply sha_swp. Qed.

Lemma real_extends (HN : (64 <= NUM_BITS)%nat) wit ins vs s outs s' rho0 : good_for rho0 s ->
  Forall2 (fun b v => carries_for rho0 s (bool_lc b 1) (Z.b2z v)) ins vs -> run wit (sha256_r1cs ins) s = (Ok outs, s') ->
  exists rho, same_on s rho rho0 /\ good_for rho s' /\ Forall2 (fun b v => carries_for rho s' (bool_lc b 1) (Z.b2z v)) outs (sha256 vs).
Proof. intros G. exact (top_sha_extends wit ins vs s outs s' rho0 G HN). Qed.

Theorem top_real_prev_iff blk hsh s : (64 <= NUM_BITS)%nat -> good s -> exists s', run true (check_prev_hash_r1cs blk hsh) s = (Ok tt, s') /\
  (sat (asg s') s' <-> firstn 256 (words_bits hsh) = firstn (64 * List.length hsh) (sha256d (words_bits blk))).
Proof. intros HN. exact (by_prev_iff sha256_r1cs (real_honest HN) blk hsh s). Qed.
Theorem top_real_prev_fips K H blk hsh s : round_constants K -> initial_hash H -> (64 <= NUM_BITS)%nat -> good s -> List.length hsh = 4%nat ->
  exists s', run true (check_prev_hash_r1cs blk hsh) s = (Ok tt, s') /\ (sat (asg s') s' <-> double_digest K H (words_bits blk) (words_bits hsh)).
Proof.
  intros HK HH HN G HL. destruct (top_real_prev_iff blk hsh s HN G) as (s' & Hr & HS). exists s'. split; [exact Hr|].
  rewrite HS, top_sha256d by auto. rewrite HL, !firstn_all2; [reflexivity| |]; [unfold sha256d; rewrite sha256_length; lia|rewrite words_bits_length, HL; lia].
Qed.
Theorem top_real_prev_sound wit blk hsh s s' rho : run wit (check_prev_hash_r1cs blk hsh) s = (Ok tt, s') -> sat rho s' ->
  let n := List.length (st_aux s) in
  exists hv bv, map (fun x => feval rho (lc_var x)) (word_vars n (List.length hsh)) = map Z.b2z hv /\
    map (fun x => feval rho (lc_var x)) (word_vars (n + 64 * List.length hsh) (List.length blk)) = map Z.b2z bv /\
    firstn 256 hv = firstn (64 * List.length hsh) (sha256d bv).
Proof. exact (by_prev_sound sha256_r1cs real_sound wit blk hsh s s' rho). Qed.
Theorem top_real_prev_free wit blk hsh s s' rho0 : (64 <= NUM_BITS)%nat -> good_for rho0 s ->
  run wit (check_prev_hash_r1cs blk hsh) s = (Ok tt, s') -> exists rho, same_on s rho rho0 /\ sat rho s'.
Proof. intros HN. apply (by_prev_free sha256_r1cs); [exact (real_honest HN)|exact real_sound|exact (real_extends HN)]. Qed.
Lemma bits_228 : 2 ^ 228 <= modulus -> (64 <= NUM_BITS)%nat.
Proof. intros HP. assert (HN : (225 < NUM_BITS)%nat) by (apply num_bits_above; change (Z.of_nat 225) with 225; lia). lia. Qed.
Theorem top_real_pow_iff h T s : good s -> header_ok h -> 2 ^ 228 <= modulus -> digest_int (sha256d (words_bits h)) < 2 ^ 255 ->
  (let? b := split_bytes (nth 9 h 0 / 2 ^ 32) in target_closure b) = Ok T ->
  ((exists p s', run true (stage_pow_r1cs h) s = (Ok p, s') /\ good s' /\ an_at s' (snd (fst p)) T /\ an_at s' (snd p) (digest_int (sha256d (words_bits h)) mod modulus)) <->
   (digest_int (sha256d (words_bits h)) + 2 ^ 226 - T) mod modulus < 2 ^ 225) /\
  (~ (digest_int (sha256d (words_bits h)) + 2 ^ 226 - T) mod modulus < 2 ^ 225 -> fst (run true (stage_pow_r1cs h) s) = Panic).
Proof. intros G H HP. exact (by_pow_iff sha256_r1cs (real_honest (bits_228 HP)) real_sound (real_extends (bits_228 HP)) h T s G H HP). Qed.
Theorem top_real_pow_never h s : good s -> header_ok h -> 2 ^ 228 <= modulus -> digest_int (sha256d (words_bits h)) < 2 ^ 255 ->
  digest_int (sha256d (words_bits h)) < modulus - 2 ^ 226 -> fst (run true (stage_pow_r1cs h) s) = Panic.
Proof. intros G H HP. exact (by_pow_never sha256_r1cs (real_honest (bits_228 HP)) real_sound (real_extends (bits_228 HP)) h s G H HP). Qed.
Theorem top_real_pow_free wit h T y s b target hash s' rho0 : (64 <= NUM_BITS)%nat -> good_for rho0 s ->
  run wit (stage_pow_r1cs h) s = (Ok (b, target, hash), s') -> canon T -> canon y ->
  exists rho, same_on s rho rho0 /\ sat rho s' /\ feval rho (lc_var (an_var target)) = T /\ feval rho (lc_var (an_var hash)) = y.
Proof. intros HN. apply (by_pow_free sha256_r1cs). exact (real_extends HN). Qed.
Theorem top_real_synthesize wit h z s : fst (run wit (synthesize_r1cs [] h z) s) = Panic.
Proof. exact (by_synthesize_panics sha256_r1cs wit h z s). Qed.
End Real.
Theorem top_same_text (E : Env) : (forall blk hsh, check_prev_hash_by sha256_gadget blk hsh = check_prev_hash blk hsh) /\
  (forall h, stage_pow_by sha256_gadget h = stage_pow h) /\ (forall o h z, synthesize_by sha256_gadget o h z = synthesize_with o h z).
Proof. repeat match goal with |- _ /\ _ => split end; reflexivity. Qed.
