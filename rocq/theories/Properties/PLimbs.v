(** C94: taking a number apart into its limbs. *)
From Coq Require Import ZArith Bool List.
From Verif.Model Require Import Base Fields CS Bellpepper Util Poly Bignat.
From Verif.Spec Require Import Spec.
From Verif.Proofs Require Import Prime AsLimbs.
Import ListNotations.
Local Open Scope Z_scope.

(** [as_limbs] gives the wires of the number, in order, each with the value of its limb. *)
Theorem C94_as_limbs : forall (E : Env) s b vs, bignat_at s b vs ->
  exists ns, as_limbs b = Ok ns /\ Forall2 (num_at s) ns vs /\ map n_lc ns = limbs b.
Proof. exact @top_as_limbs. Qed.
Print Assumptions C94_as_limbs.

(** Without values, as in setup, the same wires without values. *)
Theorem C94_as_limbs_setup : forall b, limb_values b = None ->
  as_limbs b = Ok (map (fun l => mkNum l None) (limbs b)).
Proof. exact @top_as_limbs_none. Qed.
Print Assumptions C94_as_limbs_setup.

(** It panics on a number with fewer values than limbs. *)
Theorem C94_as_limbs_panics : forall b vs, limb_values b = Some vs -> (length vs < length (limbs b))%nat ->
  as_limbs b = Panic.
Proof. exact @top_as_limbs_short. Qed.
Print Assumptions C94_as_limbs_panics.

(** [from_limbs] puts the number together again, except for its bounds: those are reset to the limb width. *)
Theorem C94_round_trip : forall (E : Env) (W : Wf E) s b vs, bignat_at s b vs ->
  exists ns, as_limbs b = Ok ns /\
    let c := from_limbs ns (limb_width (bparams b)) in
    limbs c = limbs b /\ limb_values c = limb_values b /\ value c = value b /\
    bparams c = mkParams 0 (2 ^ Z.of_nat (limb_width (bparams b)) - 1) (limb_width (bparams b)) (n_limbs (bparams b)).
Proof. exact @top_as_limbs_back. Qed.
Print Assumptions C94_round_trip.

Example C94_case : let E := small_env 251 in
  let '(r, s) := run true (alloc_from_nat (Ok 37) 3 3) st_init in
  match r with
  | Ok a => map n_val (match as_limbs a with Ok ns => ns | _ => [] end) = [Some 5; Some 4; Some 0] /\
      map (fun n => wires (asg s) [n_lc n]) (match as_limbs a with Ok ns => ns | _ => [] end) = [[5]; [4]; [0]]
  | _ => False
  end.
Proof. vm_compute. auto. Qed.

(** A shifted number carries limbs above its width: its parts put together again record a bound they break. *)
Theorem C94_bound_refuted : let E := small_env 251 in
  exists s a b vs, run true (alloc_from_nat (Ok 7) 3 1) st_init = (Ok a, s) /\ shift a 7 = Ok b /\ bignat_at s b vs /\
    exists ns, as_limbs b = Ok ns /\ ~ bignat_at s (from_limbs ns (limb_width (bparams b))) vs.
Proof. exact top_bound_lost. Qed.
Print Assumptions C94_bound_refuted.
