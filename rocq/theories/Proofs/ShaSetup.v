(** Parameter generation of the previous-hash check with the constraints of the real gadget. *)
From Coq Require Import ZArith Bool String List Lia.
From Verif.Model Require Import Base Sha256 CS Bellpepper Util Poly Bignat Difficulty ShaGadget RealHash.
From Verif.Spec Require Import Spec.
From Verif.Proofs Require Import Arith Wp TopDifficulty HashP Ewp ShaBits ShaInst RealHashP.
Import ListNotations.
Local Open Scope string_scope.
Local Open Scope Z_scope.
Local Open Scope list_scope.

Section Setup.
Context {E : Env}.
Definition tot {A} (m : prog A) (P : A -> Prop) : Prop := forall s, exists a s', run false m s = (Ok a, s') /\ P a.
Lemma tot_ret {A} (a : A) (P : A -> Prop) : P a -> tot (Ret a) P.
Proof. intros H s. exists a, s. auto. Qed.
Lemma tot_bind {A B} (m : prog A) (f : A -> prog B) P Q : tot m P -> (forall a, P a -> tot (f a) Q) -> tot (bind m f) Q.
Proof.
  intros Hm Hf s. destruct (Hm s) as (a & s1 & H1 & HP). destruct (Hf a HP s1) as (b & s2 & H2 & HQ). exists b, s2.
  rewrite (run_bind_ok _ _ _ _ _ _ H1). auto.
Qed.
Lemma tot_ns {A} nm (m : prog A) P : tot m P -> tot (ns nm m) P.
Proof.
  intros H s. destruct (H (push_ns nm s)) as (a & s1 & H1 & HP). exists a, (pop_ns s1). split; [|exact HP].
  cbn [ns run]. rewrite (run_bind_ok _ _ _ _ _ _ H1). reflexivity.
Qed.
Lemma tot_unwrap {A} (m : prog A) P : tot m P -> tot (unwrap_prog m) P.
Proof.
  intros H s. destruct (H s) as (a & s1 & H1 & HP). exists a, s1. split; [|exact HP]. clear H. revert s H1.
  induction m as [y|e| |i nm w k IH|nm c k IH|nm k IH|k IH]; intros s Hr; cbn [unwrap_prog run] in *; try exact Hr; try discriminate; auto.
Qed.
Lemma ewp_tot {A} (m : prog A) : forall s (R : known) (Q : known -> A -> Prop), ewp Shape R m Q -> exists a s' R', run false m s = (Ok a, s') /\ Q R' a.
Proof.
  induction m as [a0|e| |inp nm w k IH|nm c k IH|nm k IH|k IH]; intros s R Q H; simpl in *; try tauto; eauto.
  - destruct H as (y & _ & Hk). eapply IH, Hk. reflexivity.
  - destruct H as [_ H]. eauto.
Qed.
Lemma tot_sha ins : (64 <= NUM_BITS)%nat -> Wf E -> (List.length ins mod 8 = 0)%nat -> tot (sha256_r1cs ins) (fun o => List.length o = 256%nat).
Proof.
  intros HN W L8 s. destruct (ewp_tot _ s _ _ (sha_ewp Shape HN (fun _ => False) ins (map (fun _ => false) ins) ltac:(intros rho []) L8
    ltac:(clear; induction ins; cbn [map]; constructor; auto; split; [intros rho []|discriminate]))) as (o & s' & R' & Hr & HF).
  exists o, s'. split; [exact Hr|]. rewrite (Forall2_length _ _ _ HF). apply sha256_length.
Qed.
Lemma tot_mapM {A B} (f : A -> prog B) (P : B -> Prop) : (forall x, tot (f x) P) -> forall l, tot (mapM f l) (fun r => Forall P r /\ List.length r = List.length l).
Proof.
  intros H. induction l as [|x l IH]; cbn [mapM]; [apply tot_ret; auto|].
  eapply tot_bind; [apply H|]. intros y Hy. eapply tot_bind; [exact IH|]. intros r [Hr Hl]. apply tot_ret. split; [auto|cbn [List.length]; congruence].
Qed.
Lemma tot_words pre ws : tot (words_to_bits pre ws) (fun l => Forall is_is l /\ (List.length l mod 8 = 0)%nat).
Proof.
  unfold words_to_bits. eapply tot_bind.
  - apply (tot_mapM _ (fun l => Forall is_is l /\ List.length l = 64%nat)). intros p.
    eapply tot_bind with (P := fun l => Forall is_is l /\ List.length l = 64%nat).
    + apply tot_unwrap, tot_ns. intros s. apply (tot_mapM _ is_is).
      intros i. eapply (tot_bind _ _ (fun _ => True)); [apply tot_ns|intros b _; apply tot_ret; exact I].
      intros t. do 2 eexists. split; [reflexivity|exact I].
    + intros l [Hl Hn]. apply tot_ret. split; [apply Forall_rev, Hl|rewrite rev_length; exact Hn].
  - intros r [Hr _]. apply tot_ret. induction Hr as [|l r [Hl Hn] _ [IH1 IH2]]; cbn [List.concat]; [split; [constructor|reflexivity]|].
    split; [apply Forall_app; split; assumption|]. rewrite app_length, Hn, Nat.add_mod, IH2 by discriminate. reflexivity.
Qed.
Lemma top_prev_setup blk hsh s : Wf E -> (64 <= NUM_BITS)%nat -> exists s', run false (check_prev_hash_r1cs blk hsh) s = (Ok tt, s').
Proof.
  intros W HN. assert (T : tot (check_prev_hash_r1cs blk hsh) (fun _ => True)); [|destruct (T s) as ([] & s' & H & _); eauto].
  unfold check_prev_hash_r1cs, check_prev_hash_by.
  eapply tot_bind; [apply tot_words|]. intros hv [Hh _]. eapply tot_bind; [apply tot_words|]. intros pv [_ Hp].
  eapply tot_bind; [apply tot_unwrap, tot_ns, tot_sha; eassumption|]. intros o1 H1.
  eapply tot_bind; [apply tot_unwrap, tot_ns, tot_sha; [eassumption|eassumption|rewrite H1; reflexivity]|]. intros o2 _.
  intros t. destruct (compare_any false (combine hv o2) 0 t (combine_first hv o2 Hh)) as (s' & Hr & _). eauto.
Qed.
End Setup.
