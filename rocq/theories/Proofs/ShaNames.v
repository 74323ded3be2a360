(** Naming discipline of the SHA-256 gadget's own constraints and of the circuits that use them. *)
From Coq Require Import ZArith Bool Lia String List.
From Verif.Model Require Import Base Sha256 CS TestCS Bellpepper Util Poly Bignat Gadget Ints Median Difficulty HeaderStep ShaGadget RealHash.
From Verif.Spec Require Import SpecNames.
From Verif.Proofs Require Import NamesP NamesG.
Import ListNotations.
Local Open Scope string_scope.
Local Open Scope Z_scope.
Local Open Scope list_scope.

Section ShaNames.
Context {E : Env}.
Hint Resolve n_an_alloc n_an_add n_ab_alloc n_bool_and n_equals n_less_than n_u64 : nm.

Lemma n_ab_xor : forall a b, tidy (ab_xor a b).
Proof. intros. unfold ab_xor. td. Qed.
Lemma n_bool_xor : forall a b, tidy (bool_xor a b).
Proof. intros [a|a|[|]] [b|b|[|]]; unfold bool_xor, ab_xor; td. Qed.
Lemma tidy_then : forall A B (m : prog A) (f : A -> B), tidy m -> tidy (let! r := m in Ret (f r)).
Proof.
  intros A B m f [l H]. exists (l ++ []). eapply named_bind; [exact H|intro; apply named_ret|].
  clear. induction l as [|x l IH]; [reflexivity|]. exact IH.
Qed.
Lemma n_ch_general : forall a b c, tidy (ch_general a b c).
Proof. intros. unfold ch_general. td. Qed.
Lemma n_maj_general : forall a b c, tidy (maj_general a b c).
Proof. intros. unfold maj_general. td. Qed.
Lemma n_ret : forall A (a : A), tidy (Ret a).
Proof. intros. exists []. apply named_ret. Qed.
Lemma n_bool_ch : forall a b c, tidy (bool_ch a b c).
Proof.
  intros [a|a|[|]] [b|b|[|]] [c|c|[|]]; unfold bool_ch;
    first [apply n_ret | apply n_ch_general | apply n_bool_and | apply tidy_then, n_bool_and].
Qed.
Lemma n_bool_maj : forall a b c, tidy (bool_maj a b c).
Proof.
  intros [a|a|[|]] [b|b|[|]] [c|c|[|]]; unfold bool_maj;
    first [apply n_ret | apply n_maj_general | apply n_bool_and | apply tidy_then, n_bool_and].
Qed.
Lemma n_u_xor : forall a b, tidy (u_xor a b).
Proof.
  intros. unfold u_xor, zip_bits. apply tidy_then. eapply tidy_of.
  apply (named_mapM _ _ _ fst [("xor of bit_gadget ", "")]); [|reflexivity|apply nodup_combine].
  intros p _. apply named_ns'; [apply n_bool_xor|reflexivity].
Qed.
Lemma n_u_ch : forall a b c, tidy (u_ch a b c).
Proof.
  intros. unfold u_ch, u_triop, zip3_bits. apply tidy_then. eapply tidy_of.
  apply (named_mapM _ _ _ fst [("ch ", "")]); [|reflexivity|apply nodup_combine].
  intros p _. apply named_ns'; [apply n_bool_ch|reflexivity].
Qed.
Lemma n_u_maj : forall a b c, tidy (u_maj a b c).
Proof.
  intros. unfold u_maj, u_triop, zip3_bits. apply tidy_then. eapply tidy_of.
  apply (named_mapM _ _ _ fst [("maj ", "")]); [|reflexivity|apply nodup_combine].
  intros p _. apply named_ns'; [apply n_bool_maj|reflexivity].
Qed.
Definition l_meq : list pat := [PN "multieq " anyi ""].
Lemma anyi_of : forall A (m : prog A) pre i post, named m [PN pre (eq i) post] -> named m [PN pre anyi post].
Proof. intros A m pre i post H. exact (named_any _ m [(pre, post)] (eq i) H). Qed.
Lemma named_accumulate : forall q, named (mq_accumulate q) l_meq.
Proof.
  intros. unfold mq_accumulate, l_meq. apply (named_bind _ _ _ _ [PN "multieq " anyi ""] []); [|intro; apply named_ret|reflexivity].
  apply (anyi_of _ _ "multieq " (mq_ops q) ""). apply (named_enforce (Nmi "multieq " (mq_ops q) "")). reflexivity.
Qed.
Lemma named_meq_equal : forall q n l r, named (mq_enforce_equal q n l r) l_meq.
Proof.
  intros. unfold mq_enforce_equal. apply (named_bind _ _ _ _ l_meq []); [| |reflexivity].
  - apply named_incl with (l := l_meq ++ []); [|intros x Hx; rewrite app_nil_r in Hx; exact Hx].
    apply named_if; [apply named_accumulate|apply named_ret].
  - intro. eapply named_incl; [apply named_if; [apply named_crash|apply named_ret]|intros x Hx; exact Hx].
Qed.
Lemma named_drop : forall q, named (mq_drop q) l_meq.
Proof.
  intros. unfold mq_drop. destruct (0 <? mq_bits q)%nat.
  - apply (named_bind _ _ _ _ l_meq []); [apply named_accumulate|intro; apply named_ret|reflexivity].
  - eapply named_incl; [apply named_ret|intros x []].
Qed.
Lemma n_addmany : forall q ops, tidy (u_addmany q ops).
Proof.
  intros. unfold u_addmany.
  destruct (NUM_BITS <? 64)%nat; [exists []; apply named_crash|].
  destruct (List.length ops <? 2)%nat; [exists []; apply named_crash|].
  destruct (10 <? List.length ops)%nat; [exists []; apply named_crash|]. cbv zeta.
  match goal with |- tidy (match ?a with true => match ?b with Some _ => _ | None => ?m end | false => _ end) =>
    assert (K : tidy m); [|destruct a; [destruct b; [apply n_ret|exact K]|exact K]] end.
  exists ([PN "result bit_gadget " anyi ""] ++ (l_meq ++ [])). eapply named_bind.
  - apply (named_mapM _ _ _ (fun i => i) [("result bit_gadget ", "")]); [|reflexivity|apply nodup_seq]. intros i _. body.
  - intro. eapply named_bind; [apply named_meq_equal|intro; apply named_ret|reflexivity].
  - reflexivity.
Qed.
Lemma n_compute : forall q m o, tidy (mb_compute q m o).
Proof. intros q [us|u] o; [apply n_addmany|apply n_ret]. Qed.
Hint Resolve n_u_xor n_u_ch n_u_maj n_addmany n_compute : nm.

Lemma named_extend : forall st i, named (w_extend st i) [PN "w extension " (eq i) ""].
Proof.
  intros [q w] i. unfold w_extend. apply named_ns'; [|reflexivity]. td.
Qed.
Lemma named_round : forall w st i, named (sha_round w st i) [PN "compression round " (eq i) ""].
Proof.
  intros w [q v] i. unfold sha_round. apply named_ns'; [|reflexivity]. cbv zeta. td.
Qed.
Lemma named_words_in : forall l, named (mapM u_from_be l) [].
Proof.
  induction l as [|x l IH]; cbn [mapM]; [apply named_ret|].
  apply (named_bind _ _ _ _ [] []); [| |reflexivity].
  - unfold u_from_be. destruct (negb _); [apply named_crash|apply named_ret].
  - intro. apply (named_bind _ _ _ _ [] []); [exact IH|intro; apply named_ret|reflexivity].
Qed.
Lemma n_compress : forall input cur, tidy (sha_compress input cur).
Proof.
  intros. unfold sha_compress. destruct (negb _); [exists []; apply named_crash|].
  do 8 (destruct cur as [|? cur]; [exists []; apply named_crash|]). destruct cur; [|exists []; apply named_crash].
  eapply tidy_of. eapply named_bind; [apply named_words_in|intro w|shelve].
  eapply named_bind; [apply (named_foldM _ _ _ (fun i => i) [("w extension ", "")]); [|reflexivity|apply nodup_seq]; intros i s _; apply named_extend
    |intros [q w']|shelve].
  eapply named_bind; [apply (named_foldM _ _ _ (fun i => i) [("compression round ", "")]); [|reflexivity|apply nodup_seq]; intros i s _; apply named_round
    |intros [q' v]|shelve].
  do 8 (eapply named_bind; [nm1|intros [? ?]|shelve]).
  eapply named_bind; [apply named_drop|intro; apply named_ret|shelve].
Unshelve. all: reflexivity.
Qed.
Lemma n_sha_r1cs : forall ins, tidy (sha256_r1cs ins).
Proof.
  intros. unfold sha256_r1cs. destruct (negb _); [exists []; apply named_crash|]. cbv zeta. apply tidy_then. eapply tidy_of.
  apply (named_foldM _ _ _ fst [("block ", "")]); [|reflexivity|apply nodup_combine].
  intros p s _. apply named_ns'; [apply n_compress|reflexivity].
Qed.
Hint Resolve n_sha_r1cs : nm.
Hint Extern 1 (named (words_to_bits _ _) _) => apply named_words; reflexivity : nm.
Hint Extern 1 (named (an_u _ _) _) => apply named_an_u; reflexivity : nm.
Hint Extern 1 (named (assert_true _) _) => apply named_assert_true : nm.

Lemma n_check_prev_r1cs : forall p h, tidy (check_prev_hash_r1cs p h).
Proof.
  intros. unfold check_prev_hash_r1cs, check_prev_hash_by. eapply tidy_of.
  eapply named_bind; [nm1| |]; [intro hv|]. eapply named_bind; [nm1| |]; [intro pv|].
  eapply named_bind; [nm1| |]; [intro o1|]. eapply named_bind; [nm1| |]; [intro o2|].
  apply (named_iterM _ _ fst [("bit ", "")]); [|reflexivity|apply nodup_combine].
  - intros q _. apply named_ignore_eq. reflexivity.
  - reflexivity.
  - reflexivity.
  - reflexivity.
  - reflexivity.
Qed.
Lemma named_pow_r1cs : forall h, named (stage_pow_r1cs h) l_pow.
Proof. intros. unfold stage_pow_r1cs, stage_pow_by. eapply named_incl; [nm1|unfold l_pow; incl_tac]. Qed.
Lemma n_synthesize_r1cs : forall z_out h z, tidy (synthesize_r1cs z_out h z).
Proof.
  intros. unfold synthesize_r1cs, synthesize_by. eapply tidy_of.
  eapply named_bind; [apply named_prev|intros _|shelve].
  eapply named_bind; [apply named_pow_r1cs|intros ((b & t) & c)|shelve].
  eapply named_bind; [apply named_time|intros ct|shelve].
  eapply named_bind; [apply named_work|intros wk|shelve].
  eapply named_bind; [apply named_update|intros ((? & ?) & e)|shelve].
  apply named_out.
Unshelve. all: reflexivity.
Qed.
End ShaNames.
