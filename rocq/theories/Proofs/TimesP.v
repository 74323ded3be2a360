(** C115: which timestamps the time stage reads. *)
From Coq Require Import ZArith Bool List Lia.
From Verif.Model Require Import Base Ints CS Bellpepper Util HeaderStep Fields.
From Verif.Spec Require Import Spec SpecTimes.
From Verif.Proofs Require Import Convert HeaderPanics HeaderW.
Import ListNotations.
Local Open Scope Z_scope.

Section TimesP.
Context {E : Env} {W : Wf E}.

Lemma rmapM_ext {A B} (f g : A -> res B) : forall l, (forall a, In a l -> f a = g a) -> rmapM f l = rmapM g l.
Proof.
  induction l as [|a l IH]; intros H; cbn [rmapM]; [reflexivity|].
  rewrite (H a (or_introl eq_refl)), IH; [reflexivity|]. intros b Hb. apply H. now right.
Qed.

Lemma rmapM_panic {A B} (f : A -> res B) : (forall a, nerr (f a)) -> forall l a, In a l -> f a = Panic -> rmapM f l = Panic.
Proof.
  intros HN. induction l as [|b l IH]; intros a Ha HP; [destruct Ha|destruct Ha as [Ha|Ha]]; cbn [rmapM].
  - subst b. now rewrite HP.
  - specialize (IH a Ha HP). pose proof (HN b) as Hb. destruct (f b) as [x|e|]; cbn [rbind]; [now rewrite IH|now destruct (Hb e)|reflexivity].
Qed.

Lemma in_times i : In i (seq 1 11) <-> a_time i.
Proof. rewrite in_seq. unfold a_time. lia. Qed.

Lemma state_entry z i : state_time z i = match entry z i with Some (Some v) => idx (digits (2 ^ 32) (f_to_nat v)) 0 | _ => Panic end.
Proof. unfold state_time, entry, idx at 1. destruct (nth_error z i) as [a|]; cbn; [|reflexivity]. now destruct (an_val a). Qed.

Lemma times_only h z z' wit s : (forall i, a_time i -> entry z i = entry z' i) -> run wit (stage_time h z) s = run wit (stage_time h z') s.
Proof.
  intros H. unfold stage_time. rewrite (rmapM_ext (state_time z) (state_time z')); [reflexivity|].
  intros i Hi. rewrite !state_entry, (H i); [reflexivity|]. now apply in_times.
Qed.

Lemma times_low h z z' wit s : low_agree z z' -> run wit (stage_time h z) s = run wit (stage_time h z') s.
Proof.
  intros H. unfold stage_time. rewrite (rmapM_ext (state_time z) (state_time z')); [reflexivity|].
  intros i Hi. apply in_times in Hi. destruct (H i Hi) as (v & v' & H1 & H2 & H3 & H4 & H5).
  rewrite !state_entry, H1, H2, !f_to_nat_canon by (red; lia).
  rewrite !digit0 by lia. now rewrite H5.
Qed.

Lemma times_missing h z wit s i : a_time i -> entry z i = None \/ entry z i = Some None \/ entry z i = Some (Some 0) ->
  run wit (stage_time h z) s = (Panic, s).
Proof.
  intros Hi H. unfold stage_time. rewrite (rmapM_panic (state_time z) (nerr_state z) _ i); [reflexivity|now apply in_times|].
  rewrite state_entry. destruct H as [H|[H|H]]; rewrite H; [reflexivity|reflexivity|].
  rewrite f_to_nat_canon; [reflexivity|]. pose proof wf_two. red. lia.
Qed.

End TimesP.
