(** The limbs of a number as separate numbers. *)
From Coq Require Import ZArith List Lia.
From Verif.Model Require Import Base Fields CS Bellpepper Util Poly Bignat.
From Verif.Spec Require Import Spec.
From Verif.Proofs Require Import Arith Wp Limbs.
Import ListNotations.
Local Open Scope Z_scope.

Lemma rm_ext {A B} (f g : A -> res B) : (forall a, f a = g a) -> forall l, rmapM f l = rmapM g l.
Proof. intros H. induction l as [|a l IH]; cbn [rmapM]; [reflexivity|]. rewrite H, IH. reflexivity. Qed.
Section AsLimbs.
Context {E : Env}.
Lemma as_values vs : forall (ls : list LC) k, (k + length ls <= length vs)%nat ->
  rmapM (fun p => let? v := idx vs (fst p) in Ok (mkNum (snd p) (Some v))) (combine (seq k (length ls)) ls) =
  Ok (map (fun p => mkNum (fst p) (Some (snd p))) (combine ls (skipn k vs))).
Proof.
  induction ls as [|l ls IH]; intros k H; cbn [length seq combine rmapM map]; [reflexivity|].
  cbn [length] in H. destruct (skipn k vs) as [|v vs'] eqn:HS.
  { apply (f_equal (@length Z)) in HS. rewrite skipn_length in HS. cbn in HS. lia. }
  assert (HN : nth_error vs k = Some v).
  { rewrite <- (firstn_skipn k vs), HS, nth_error_app2; rewrite firstn_length, min_l by lia; [|lia]. rewrite Nat.sub_diag. reflexivity. }
  unfold idx at 1. cbn [fst snd]. rewrite HN. cbn [unwrap rbind]. rewrite IH by lia. cbn [rbind combine map fst snd].
  assert (HS' : skipn (S k) vs = vs').
  { change (S k) with (1 + k)%nat. rewrite Nat.add_comm. rewrite <- (firstn_skipn k vs) at 1. rewrite HS.
    rewrite skipn_app, firstn_length, min_l by lia. rewrite skipn_all2 by (rewrite firstn_length; lia). replace (k + 1 - k)%nat with 1%nat by lia. reflexivity. }
  rewrite HS'. reflexivity.
Qed.
Lemma as_short vs : forall (ls : list LC) k, (length vs < k + length ls)%nat -> (k <= length vs)%nat ->
  rmapM (fun p => let? v := idx vs (fst p) in Ok (mkNum (snd p) (Some v))) (combine (seq k (length ls)) ls) = Panic.
Proof.
  induction ls as [|l ls IH]; intros k H HK; cbn [length seq combine rmapM] in *; [lia|].
  unfold idx at 1. cbn [fst snd]. destruct (nth_error vs k) as [v|] eqn:HN; cbn [unwrap rbind]; [|reflexivity].
  assert (k < length vs)%nat by (apply nth_error_Some; congruence). rewrite IH by lia. reflexivity.
Qed.
Lemma as_none : forall (ls : list LC) k,
  rmapM (fun p : nat * LC => Ok (mkNum (snd p) None)) (combine (seq k (length ls)) ls) = Ok (map (fun l => mkNum l None) ls).
Proof. induction ls as [|l ls IH]; intros k; cbn [length seq combine rmapM map rbind snd]; [reflexivity|]. rewrite IH. reflexivity. Qed.

Lemma top_as_limbs_values b vs : limb_values b = Some vs -> (length (limbs b) <= length vs)%nat ->
  as_limbs b = Ok (map (fun p => mkNum (fst p) (Some (snd p))) (combine (limbs b) vs)).
Proof.
  intros HV HL. unfold as_limbs. rewrite HV. apply (as_values vs (limbs b) 0). exact HL.
Qed.
Lemma top_as_limbs_none b : limb_values b = None -> as_limbs b = Ok (map (fun l => mkNum l None) (limbs b)).
Proof. intros HV. unfold as_limbs. rewrite HV. apply as_none. Qed.
Lemma top_as_limbs_short b vs : limb_values b = Some vs -> (length vs < length (limbs b))%nat -> as_limbs b = Panic.
Proof. intros HV HL. unfold as_limbs. rewrite HV. apply as_short; lia. Qed.
Lemma nums_at s ls vs : Forall2 (carries s) ls vs -> Forall canon vs ->
  Forall2 (num_at s) (map (fun p => mkNum (fst p) (Some (snd p))) (combine ls vs)) vs.
Proof.
  induction 1 as [|l v ls vs H1 H2 IH]; intros HC; cbn [combine map]; constructor; inversion HC; subst.
  - split; [reflexivity|split; assumption].
  - apply IH; assumption.
Qed.
Lemma lcs_of (ls : list LC) : forall vs : list Z, length ls = length vs -> map n_lc (map (fun p => mkNum (fst p) (Some (snd p))) (combine ls vs)) = ls.
Proof. induction ls as [|l ls IH]; intros [|v vs] H; cbn in *; try discriminate; [reflexivity|]. rewrite IH by lia. reflexivity. Qed.
Lemma vals_of (ls : list LC) : forall vs : list Z, length ls = length vs -> all_some (map n_val (map (fun p => mkNum (fst p) (Some (snd p))) (combine ls vs))) = Some vs.
Proof. induction ls as [|l ls IH]; intros [|v vs] H; try discriminate; [reflexivity|]. unfold all_some in *. cbn [combine map fold_right n_val fst snd]. rewrite IH by (cbn in H; lia). reflexivity. Qed.
Lemma top_as_limbs s b vs : bignat_at s b vs ->
  exists ns, as_limbs b = Ok ns /\ Forall2 (num_at s) ns vs /\ map n_lc ns = limbs b.
Proof.
  intros (HV & HC & _ & _ & HF). assert (HL : length (limbs b) = length vs) by (exact (Forall2_length _ _ _ HC)).
  eexists. split; [apply top_as_limbs_values; [exact HV|lia]|]. split; [|apply lcs_of; exact HL].
  apply nums_at; [exact HC|]. eapply Forall_impl; [|exact HF]. cbv beta. tauto.
Qed.
Lemma top_as_limbs_back {W : Wf E} s b vs : bignat_at s b vs ->
  exists ns, as_limbs b = Ok ns /\
    let c := from_limbs ns (limb_width (bparams b)) in
    limbs c = limbs b /\ limb_values c = limb_values b /\ value c = value b /\
    bparams c = mkParams 0 (2 ^ Z.of_nat (limb_width (bparams b)) - 1) (limb_width (bparams b)) (n_limbs (bparams b)).
Proof.
  intros (HV & HC & Hv & Hn & HF). assert (HL : length (limbs b) = length vs) by (exact (Forall2_length _ _ _ HC)).
  eexists. split; [apply top_as_limbs_values; [exact HV|lia]|]. cbv zeta. unfold from_limbs. cbn [limbs limb_values value bparams].
  rewrite lcs_of, vals_of by exact HL. repeat split.
  - symmetry; exact HV.
  - rewrite Hv. cbn [option_map]. f_equal. apply limbs_to_nat_canon. eapply Forall_impl; [|exact HF]. cbv beta. tauto.
  - rewrite map_length, combine_length, HL, Nat.min_id, <- Hn. f_equal. apply int_with_n_ones_spec.
Qed.
End AsLimbs.
Lemma top_bound_lost : let E := small_env 251 in
  exists s a b vs, run true (alloc_from_nat (Ok 7) 3 1) st_init = (Ok a, s) /\ shift a 7 = Ok b /\ bignat_at s b vs /\
    exists ns, as_limbs b = Ok ns /\ ~ bignat_at s (from_limbs ns (limb_width (bparams b))) vs.
Proof.
  cbv zeta. pose (E := small_env 251).
  destruct (run true (alloc_from_nat (Ok 7) 3 1) st_init) as [r s] eqn:HR.
  destruct r as [a|e|]; [|vm_compute in HR; discriminate HR|vm_compute in HR; discriminate HR].
  destruct (shift a 7) as [b|e|] eqn:HS; [|vm_compute in HR; injection HR as <- <-; vm_compute in HS; discriminate HS..].
  exists s, a, b, [14]. split; [reflexivity|]. split; [exact HS|].
  vm_compute in HR. injection HR as <- <-. vm_compute in HS. injection HS as <-.
  split.
  { repeat split; try reflexivity.
    - constructor; [|constructor]. intros rho HA H1. destruct HA as [_ HA]. unfold feval. cbn [lc_eval fold_right]. cbn.
      specialize (HA 0%nat ltac:(cbn; lia)). cbn in HA. change (VIn 0) with ONE. rewrite HA, H1. reflexivity.
    - constructor; [|constructor]. vm_compute. repeat split; discriminate. }
  eexists. split; [reflexivity|]. intros (_ & _ & _ & _ & HF). inversion HF as [|? ? [[_ H] _] _]. vm_compute in H. apply H. reflexivity.
Qed.
