(** Exact verdicts of honest runs, composed (C83). *)
From Coq Require Import ZArith Bool List Lia ZifyBool ZifyNat.
From Verif.Model Require Import Base CS TestCS Bellpepper Util Poly Bignat RepoTests.
From Verif.Spec Require Import Spec SpecNames.
From Verif.Proofs Require Import Field Arith Convert Limbs Wp Lc BitNum PolyP BoolP BignatEq BignatAlloc Group Carry Regroup Mult MultC MinBits Owp TopBits TopBignat1 TopBignat2 TopBignat3 Total TopTotal NamesG.
Import ListNotations.
Local Open Scope Z_scope.

Section Dec.
Context {E : Env}.

Lemma hwp_swp {A} rho (m : prog A) : forall (Q : A -> Prop), hwp rho m Q -> swp Honest rho m Q.
Proof.
  induction m as [a|e| |inp nm w k IH|nm c k IH|nm k IH|k IH]; intros Q H; cbn in H |- *; auto; try contradiction.
  - destruct H as (z & -> & H). intros x v (z' & E1 & -> & E3). injection E1 as <-. apply IH. now apply H.
  - destruct H as (H1 & H2). intros _. auto.
Qed.

(** An honest run of [m] returns an object for which [Q] holds, and is satisfied exactly if [P]. *)
Definition dec {A} (rho : assignment) (m : prog A) (P : Prop) (Q : A -> Prop) : Prop :=
  twp rho m Q /\ swp Honest rho m (fun a => P /\ Q a) /\ (P -> hwp rho m Q).

Lemma dec_hwp {A} rho (m : prog A) (Q : A -> Prop) : hwp rho m Q -> dec rho m True Q.
Proof.
  intros H. split; [now apply twp_hwp|]. split; auto. eapply swp_mono; [apply hwp_swp; exact H|]. cbv beta. auto.
Qed.
Lemma dec_iff {A} rho (m : prog A) (P P' : Prop) (Q : A -> Prop) : (P <-> P') -> dec rho m P Q -> dec rho m P' Q.
Proof.
  intros HP (H1 & H2 & H3). split; auto. split; [|tauto]. eapply swp_mono; [exact H2|]. cbv beta. tauto.
Qed.
Lemma dec_mono {A} rho (m : prog A) (P : Prop) (Q Q' : A -> Prop) : (forall a, Q a -> Q' a) -> dec rho m P Q -> dec rho m P Q'.
Proof.
  intros HQ (H1 & H2 & H3). split; [eapply twp_mono; eauto|]. split.
  - eapply swp_mono; [exact H2|]. cbv beta. intros a [p q]. auto.
  - intros HP. eapply hwp_mono; [apply H3; auto|]. auto.
Qed.
Lemma dec_bind {A B} rho (m : prog A) (f : A -> prog B) P1 P2 Q R :
  dec rho m P1 Q -> (forall a, Q a -> dec rho (f a) P2 R) -> dec rho (bind m f) (P1 /\ P2) R.
Proof.
  intros (H1 & H2 & H3) H. split; [|split].
  - apply twp_bind. eapply twp_mono; [exact H1|]. intros a Ha. now apply H.
  - apply swp_bind. eapply swp_mono; [exact H2|]. cbv beta. intros a [Hp Ha].
    eapply swp_mono; [apply (H a Ha)|]. cbv beta. tauto.
  - intros [Hp Hp2]. apply hwp_bind. eapply hwp_mono; [apply H3; auto|]. intros a Ha. now apply (H a Ha).
Qed.
Lemma dec_step {A B} rho (m : prog A) (f : A -> prog B) P Q R :
  hwp rho m Q -> (forall a, Q a -> dec rho (f a) P R) -> dec rho (bind m f) P R.
Proof.
  intros H1 H2. eapply dec_iff; [|eapply dec_bind; [apply dec_hwp; exact H1|exact H2]]. tauto.
Qed.
Lemma dec_ns {A} rho nm (m : prog A) P Q : dec rho m P Q -> dec rho (ns nm m) P Q.
Proof.
  intros (H1 & H2 & H3). split; [now apply twp_ns|]. split.
  - now apply swp_ns.
  - intros HP. apply hwp_ns. auto.
Qed.
Lemma dec_ret {A} rho (a : A) (Q : A -> Prop) : Q a -> dec rho (Ret a) True Q.
Proof. intros H. apply dec_hwp. exact H. Qed.

Lemma sat_satb rho s : sat rho s -> satb rho s = true.
Proof.
  unfold satb, sat. rewrite andb_true_iff, Z.eqb_eq, forallb_forall, Forall_forall.
  intros [H1 H2]. split; auto. intros c Hc. specialize (H2 c Hc). destruct c; cbn [csat csatb] in *.
  - now apply Z.eqb_eq.
  - destruct (list_eq_dec _ _ _); [auto|contradiction].
Qed.

Lemma fresh_init : fresh_namespace st_init.
Proof. split; [cbn; tauto|repeat constructor]. Qed.

Lemma verdict_run {A} (m : prog A) : well_named m -> verdict m =
  match run true m st_init with (Ok _, s) => Ok (satb (asg s) s) | (Err e, _) => Err e | (Panic, _) => Panic end.
Proof. intros H. unfold verdict. now rewrite (proj1 (H true st_init fresh_init)). Qed.
End Dec.

Section Verdict.
Context {E : Env} {W : Wf E}.
Lemma dec_verdict {A} (m : prog A) (P : Prop) (b : bool) : well_named m ->
  (forall rho, rho ONE = 1 -> dec rho m P (fun _ => True)) -> (P <-> b = true) -> verdict m = Ok b.
Proof.
  intros HN H HP. rewrite verdict_run by auto.
  destruct (twp_decides m st_init P good_init) as (a & s' & Hr & Hg).
  - intros rho _ one. apply (H rho one).
  - intros rho _ one. eapply swp_mono; [apply (H rho one)|]. cbv beta. tauto.
  - intros p rho _ one. now apply (H rho one).
  - rewrite Hr. f_equal. destruct (satb (asg s') s') eqn:Es, b; auto; exfalso.
    + apply satb_sat in Es. 
      assert (p : P); [|apply HP in p; discriminate].
      refine (swp_run_honest (asg s') m st_init a s' (fun _ => P) Hr (agree_asg s') Es _).
      eapply swp_mono; [apply (H _ (proj1 Es))|]. cbv beta. tauto.
    + assert (p : P) by now apply HP. apply Hg in p. rewrite (sat_satb _ _ (p _ (agree_asg s'))) in Es. discriminate.
Qed.
End Verdict.
