(** C115: the time stage reads the low 32 bits of the eleven timestamps of the state and nothing else of it. *)
From Coq Require Import ZArith Bool List Lia.
From Verif.Model Require Import Base CS Bellpepper HeaderStep Fields.
From Verif.Spec Require Import Spec SpecTimes.
From Verif.Proofs Require Import Prime PrimeFields HeaderEx TimesP.
Import ListNotations.
Local Open Scope Z_scope.

(** Nothing of the state but the eleven timestamps plays a part. *)
Theorem C115_only_times : forall (E : Env) h z z' wit s,
  (forall i, a_time i -> entry z i = entry z' i) -> run wit (stage_time h z) s = run wit (stage_time h z') s.
Proof. exact @times_only. Qed.
Print Assumptions C115_only_times.

(** Of a positive timestamp only the low 32 bits count. *)
Theorem C115_low_bits : forall (E : Env) (W : Wf E) h z z' wit s,
  low_agree z z' -> run wit (stage_time h z) s = run wit (stage_time h z') s.
Proof. exact @times_low. Qed.
Print Assumptions C115_low_bits.

(** A timestamp that is absent, has no value, or is zero stops the step before the stage emits anything, with and without
    witnesses. *)
Theorem C115_missing_panics : forall (E : Env) (W : Wf E) h z wit s i,
  a_time i -> entry z i = None \/ entry z i = Some None \/ entry z i = Some (Some 0) ->
  run wit (stage_time h z) s = (Panic, s).
Proof. exact @times_missing. Qed.
Print Assumptions C115_missing_panics.

(** With eleven positive timestamps the stage does emit something, so the other theorems are about more than panics at once:
    2^32 + 7 is read as 7, and the run allocates a variable. *)
Example C115_case : let E := pallas_env true in
  let z := fun t => map (fun v => mkAN (Some v) (VIn 0)) (0 :: repeat t 11) in
  low_agree (z 7) (z (2 ^ 32 + 7)) /\ snd (run true (stage_time block_123456 (z 7)) st_init) <> st_init.
Proof.
  intros E z. split.
  - intros i Hi. exists 7, (2 ^ 32 + 7). unfold a_time in Hi.
    assert (Hm : 2 ^ 32 + 7 < modulus) by (vm_compute; reflexivity).
    do 12 (destruct i as [|i]; [try lia; repeat split; try reflexivity; lia|]). lia.
  - intros H. apply (f_equal (fun s => length (st_aux s))) in H. revert H. vm_compute. discriminate.
Qed.
