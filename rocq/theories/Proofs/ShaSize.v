(** Size of the SHA-256 gadget's own constraints, by evaluating the gadget on the forms of its input bits. *)
From Coq Require Import ZArith NArith Bool String List Lia.
From Verif.Model Require Import Base Sha256 CS Bellpepper Util Poly Bignat ShaGadget.
From Verif.Spec Require Import Spec SpecSize.
From Verif.Proofs Require Import Wp SizeP.
Import ListNotations.
Local Open Scope N_scope.

(** ** Size as a relation between the result and the counts *)
Definition csz {A} (m : prog A) (P : A -> N -> N -> Prop) : Prop := forall wit s x s',
  run wit m s = (Ok x, s') -> exists a k,
  List.length (st_in s') = List.length (st_in s) /\
  N.of_nat (List.length (st_aux s')) = N.of_nat (List.length (st_aux s)) + a /\
  N.of_nat (List.length (st_cons s')) = N.of_nat (List.length (st_cons s)) + k /\ P x a k.

Lemma csz_sz {A} (m : prog A) i a k P : i = 0%nat -> sz m i a k P -> csz m (fun x a' k' => a' = N.of_nat a /\ k' = N.of_nat k /\ P x).
Proof.
  intros -> H wit s x s' Hr. destruct (H wit s x s' Hr) as [(H1 & H2 & H3) HP]. exists (N.of_nat a), (N.of_nat k).
  repeat split; auto; lia.
Qed.
Lemma csz_weak {A} (m : prog A) (P Q : A -> N -> N -> Prop) : csz m P -> (forall x a k, P x a k -> Q x a k) -> csz m Q.
Proof. intros H HQ wit s x s' Hr. destruct (H _ _ _ _ Hr) as (a & k & H1 & H2 & H3 & H4). exists a, k. auto. Qed.
Lemma csz_ret {A} (x : A) (P : A -> N -> N -> Prop) : P x 0 0 -> csz (Ret x) P.
Proof. intros H wit s y s' Hr. injection Hr as <- <-. exists 0, 0. rewrite !N.add_0_r. auto. Qed.
Lemma csz_crash {A} (P : A -> N -> N -> Prop) : csz Crash P.
Proof. intros wit s y s' Hr. discriminate Hr. Qed.
Lemma csz_bind {A B} (m : prog A) (f : A -> prog B) P Q :
  csz m P -> (forall x a k, P x a k -> csz (f x) (fun y a' k' => Q y (a + a') (k + k'))) -> csz (bind m f) Q.
Proof.
  intros Hm Hf wit s y s' Hr. rewrite run_bind in Hr. destruct (run wit m s) as [[x|e|] s1] eqn:E1; try discriminate.
  destruct (Hm _ _ _ _ E1) as (a & k & H1 & H2 & H3 & H4). destruct (Hf x a k H4 _ _ _ _ Hr) as (a' & k' & K1 & K2 & K3 & K4).
  exists (a + a'), (k + k'). split; [congruence|]. split; [lia|]. split; [lia|exact K4].
Qed.
Lemma csz_ns {A} nm (m : prog A) P : csz m P -> csz (ns nm m) P.
Proof.
  intros H wit s x s' Hr. unfold ns in Hr. cbn [run] in Hr. rewrite run_bind in Hr.
  destruct (run wit m (push_ns nm s)) as [[y|e|] s1] eqn:E1; try discriminate.
  cbn [run] in Hr. injection Hr as <- <-. exact (H _ _ _ _ E1).
Qed.
Lemma csz_alloc nm w : csz (alloc nm w) (fun _ a k => a = 1 /\ k = 0).
Proof. eapply csz_weak; [eapply csz_sz; [|apply (sz_alloc _ _ (fun _ => True)); auto]; reflexivity|]. intros x a k (-> & -> & _). auto. Qed.
Lemma csz_enforce nm a b c : csz (enforce nm a b c) (fun _ a k => a = 0 /\ k = 1).
Proof. eapply csz_weak; [eapply csz_sz; [|apply sz_enforce]; reflexivity|]. intros x ? k (-> & -> & _). auto. Qed.
Lemma csz_has {A} (m : prog A) a k : csz m (fun _ a' k' => a' = a /\ k' = k) -> has_size m 0 (N.to_nat a) (N.to_nat k).
Proof.
  intros H wit s x s' Hr. destruct (H _ _ _ _ Hr) as (? & ? & H1 & H2 & H3 & -> & ->). lia.
Qed.

(** ** Forms of bits: a known constant, or a wire *)
Definition form := option bool.
Definition fm (b : Boolean) : form := match b with BConst c => Some c | _ => None end.
Definition fms := map fm.
Definition fnot (a : form) : form := match a with Some b => Some (negb b) | None => None end.
Definition fand (a b : form) : form * N :=
  match a, b with
  | Some false, _ | _, Some false => (Some false, 0)
  | Some true, x | x, Some true => (x, 0)
  | None, None => (None, 1)
  end.
Definition fxor (a b : form) : form * N :=
  match a, b with
  | Some false, x | x, Some false => (x, 0)
  | Some true, x | x, Some true => (fnot x, 0)
  | None, None => (None, 1)
  end.
Definition fneg (p : form * N) : form * N := let (f, n) := p in (fnot f, n).
Definition fch (a b c : form) : form * N :=
  match a, b, c with
  | Some x, Some y, Some z => (Some (ch_bit x y z), 0)
  | Some false, _, c => (c, 0)
  | a, Some false, c => fand (fnot a) c
  | a, b, Some false => fand a b
  | a, b, Some true => fneg (fand a (fnot b))
  | a, Some true, c => fneg (fand (fnot a) (fnot c))
  | _, _, _ => (None, 1)
  end.
Definition fmaj (a b c : form) : form * N :=
  match a, b, c with
  | Some x, Some y, Some z => (Some (maj_bit x y z), 0)
  | Some false, b, c => fand b c
  | a, Some false, c => fand a c
  | a, b, Some false => fand a b
  | a, b, Some true => fneg (fand (fnot a) (fnot b))
  | a, Some true, c => fneg (fand (fnot a) (fnot c))
  | Some true, b, c => fneg (fand (fnot b) (fnot c))
  | _, _, _ => (None, 2)
  end.
Definition word := list form.
Fixpoint fzip (f : form -> form -> form * N) (a b : word) : word * N :=
  match a, b with
  | x :: a, y :: b => let (r, n) := f x y in let (l, m) := fzip f a b in (r :: l, n + m)
  | _, _ => ([], 0)
  end.
Fixpoint fzip3 (f : form -> form -> form -> form * N) (a b c : word) : word * N :=
  match a, b, c with
  | x :: a, y :: b, z :: c => let (r, n) := f x y z in let (l, m) := fzip3 f a b c in (r :: l, n + m)
  | _, _, _ => ([], 0)
  end.
Definition frotr (k : nat) (w : word) : word := firstn 32 (skipn k w ++ w).
Definition fshr (k : nat) (w : word) : word := firstn 32 (skipn k w ++ repeat (Some false) k).
Definition fconst (v : Z) : word := map (fun i => Some (Z.testbit v (Z.of_nat i))) (seq 0 32).
Definition fcst (w : word) : bool := forallb (fun f => match f with Some _ => true | None => false end) w.

(** ** The evaluator: bits packed so far, variables, constraints *)
Record est := mkE { e_bits : N; e_aux : N; e_cons : N }.
Definition M (B : Type) := est -> option (B * est).
Definition mret {B} (b : B) : M B := fun st => Some (b, st).
Definition mbind {B D} (e : M B) (g : B -> M D) : M D := fun st => match e st with Some (r, st') => g r st' | None => None end.
Notation "'do' x <- e ;; f" := (mbind e (fun x => f)) (at level 200, x pattern, e at level 100, f at level 200).
Definition mtick (p : word * N) : M word := let (w, n) := p in fun st => Some (w, mkE (e_bits st) (e_aux st + n) (e_cons st + n)).
Definition mopt {B} (o : option B) : M B := fun st => match o with Some b => Some (b, st) | None => None end.
Definition exor (a b : word) : M word := mtick (fzip fxor a b).
Definition ech (a b c : word) : M word := mtick (fzip3 fch a b c).
Definition emaj (a b c : word) : M word := mtick (fzip3 fmaj a b c).
Definition eadd (cap : N) (ops : list word) : M word := fun st =>
  if forallb fcst ops then None else
  let n := N.log2 (N.of_nat (List.length ops) * 4294967295) + 1 in
  if cap <=? e_bits st + n
  then Some (repeat None 32, mkE n (e_aux st + n) (e_cons st + n + 1))
  else Some (repeat None 32, mkE (e_bits st + n) (e_aux st + n) (e_cons st + n)).
Fixpoint efold {S A} (f : S -> A -> M S) (l : list A) (s : S) : M S :=
  match l with [] => mret s | a :: l => do s <- f s a ;; efold f l s end.

Definition eextend (cap : N) (w : list word) (i : nat) : M (list word) :=
  do w15 <- mopt (nth_error w (i - 15)) ;;
  do s0 <- exor (frotr 7 w15) (frotr 18 w15) ;;
  do s0 <- exor s0 (fshr 3 w15) ;;
  do w2 <- mopt (nth_error w (i - 2)) ;;
  do s1 <- exor (frotr 17 w2) (frotr 19 w2) ;;
  do s1 <- exor s1 (fshr 10 w2) ;;
  do w16 <- mopt (nth_error w (i - 16)) ;;
  do w7 <- mopt (nth_error w (i - 7)) ;;
  do t <- eadd cap [w16; s0; w7; s1] ;;
  mret (w ++ [t]).
Inductive fmaybe := FD (us : list word) | FC (u : word).
Definition ecompute (cap : N) (m : fmaybe) (others : list word) : M word :=
  match m with FC u => mret u | FD us => eadd cap (us ++ others) end.
Record fvars := mkF { fa : fmaybe; fb : word; fc : word; fd : word; fe : fmaybe; ff : word; fg : word; fh : word }.
Definition eround (cap : N) (w : list word) (v : fvars) (i : nat) : M fvars :=
  do e <- ecompute cap (fe v) [] ;;
  do s1 <- exor (frotr 6 e) (frotr 11 e) ;;
  do s1 <- exor s1 (frotr 25 e) ;;
  do ch <- ech e (ff v) (fg v) ;;
  do wi <- mopt (nth_error w i) ;;
  do a <- ecompute cap (fa v) [] ;;
  do s0 <- exor (frotr 2 a) (frotr 13 a) ;;
  do s0 <- exor s0 (frotr 22 a) ;;
  do maj <- emaj a (fb v) (fc v) ;;
  mret (mkF (FD [fh v; s1; ch; fconst (nth i K256 0%Z); wi; s0; maj]) a (fb v) (fc v)
            (FD [fh v; s1; ch; fconst (nth i K256 0%Z); wi; fd v]) e (ff v) (fg v)).
Definition ecompress (cap : N) (input : list form) (cur : list word) : M (list word) :=
  match cur with
  | [h0; h1; h2; h3; h4; h5; h6; h7] =>
      fun st => (
      do w <- efold (eextend cap) (seq 16 48) (map (@rev form) (chunks 512 32 input)) ;;
      do v <- efold (eround cap w) (seq 0 64) (mkF (FC h0) h1 h2 h3 (FC h4) h5 h6 h7) ;;
      do o0 <- ecompute cap (fa v) [h0] ;;
      do o1 <- eadd cap [h1; fb v] ;;
      do o2 <- eadd cap [h2; fc v] ;;
      do o3 <- eadd cap [h3; fd v] ;;
      do o4 <- ecompute cap (fe v) [h4] ;;
      do o5 <- eadd cap [h5; ff v] ;;
      do o6 <- eadd cap [h6; fg v] ;;
      do o7 <- eadd cap [h7; fh v] ;;
      fun st => Some ([o0; o1; o2; o3; o4; o5; o6; o7],
        mkE 0 (e_aux st) (if 0 <? e_bits st then e_cons st + 1 else e_cons st))) (mkE 0 (e_aux st) (e_cons st))
  | _ => fun _ => None
  end.
Definition fpad (input : list form) : list form :=
  let l := List.length input in
  let k := ((512 - (l + 1 + 64) mod 512) mod 512)%nat in
  input ++ [Some true] ++ repeat (Some false) k ++
  map (fun i => Some (Z.testbit (Z.of_nat l mod 2 ^ 64) (Z.of_nat i))) (rev (seq 0 64)).
Definition esha (cap : N) (input : list form) : M (list form) :=
  let padded := fpad input in
  do cur <- efold (fun cur b => ecompress cap b cur) (chunks (List.length padded) 512 padded) (map fconst H0) ;;
  mret (flat_map (@rev form) cur).

(** ** The evaluator follows the gadget *)
Definition sim {A B} (m : prog A) (e : M B) (st : est) (R : A -> B -> est -> Prop) : Prop :=
  forall r st', e st = Some (r, st') ->
  csz m (fun x a k => e_aux st' = e_aux st + a /\ e_cons st' = e_cons st + k /\ R x r st').

Lemma sim_ret {A B} (x : A) (r : B) st (R : A -> B -> est -> Prop) : R x r st -> sim (Ret x) (mret r) st R.
Proof. intros H ? ? [= <- <-]. apply csz_ret. rewrite !N.add_0_r. auto. Qed.
Lemma sim_crash {A B} (e : M B) st (R : A -> B -> est -> Prop) : sim Crash e st R.
Proof. intros ? ? _. apply csz_crash. Qed.
Lemma sim_ns {A B} nm (m : prog A) (e : M B) st R : sim m e st R -> sim (ns nm m) e st R.
Proof. intros H r st' He. apply csz_ns, H, He. Qed.
Lemma sim_bind {A B A' B'} (m : prog A) (f : A -> prog A') (e : M B) (g : B -> M B') st R R' :
  sim m e st R -> (forall x r st', R x r st' -> sim (f x) (g r) st' R') -> sim (bind m f) (mbind e g) st R'.
Proof.
  intros Hm Hf r st' He. unfold mbind in He. destruct (e st) as [[r1 st1]|] eqn:E1; [|discriminate].
  eapply csz_bind; [apply Hm, E1|]. intros x a k (H1 & H2 & H3). cbv beta.
  eapply csz_weak; [apply (Hf _ _ _ H3), He|]. intros y a' k' (K1 & K2 & K3). rewrite K1, K2, H1, H2, !N.add_assoc. auto.
Qed.
Lemma sim_weak {A B} (m : prog A) (e : M B) st (R R' : A -> B -> est -> Prop) : sim m e st R -> (forall x r st', R x r st' -> R' x r st') -> sim m e st R'.
Proof. intros H HR r st' He. eapply csz_weak; [apply H, He|]. intros x a k (H1 & H2 & H3). auto. Qed.
Lemma sim_idx {A B} (f : A -> B) l i st (R : A -> B -> est -> Prop) : (forall x, R x (f x) st) -> sim (lift (idx l i)) (mopt (nth_error (map f l) i)) st R.
Proof.
  intros H r st' He. unfold mopt in He. rewrite nth_error_map in He. unfold idx. destruct (nth_error l i) as [x|]; [|discriminate He].
  injection He as <- <-. apply csz_ret. rewrite !N.add_0_r. auto.
Qed.
Lemma sim_foldM {S T A} (f : S -> A -> prog S) (g : T -> A -> M T) (R : S -> T -> est -> Prop) :
  (forall s t st a, R s t st -> sim (f s a) (g t a) st R) ->
  forall l s t st, R s t st -> sim (foldM f l s) (efold g l t) st R.
Proof.
  intros H. induction l as [|a l IH]; intros s t st Hs; cbn [foldM efold]; [apply sim_ret, Hs|].
  eapply sim_bind; [apply H, Hs|]. intros x r st' Hx. apply IH, Hx.
Qed.

Section Sim.
Context {E : Env}.

Definition fop (F : form * N) (r : Boolean) (a k : N) : Prop := F = (fm r, a) /\ k = a.
Ltac ccase := cbn [fm fand fxor fch fmaj fneg fnot]; try (apply csz_ret; split; reflexivity).
Ltac alloc1 := eapply csz_bind; [apply csz_alloc|]; intros [? ?] ? ? [-> ->].
Ltac enf1 := eapply csz_bind; [apply csz_enforce|]; intros _ ? ? [-> ->].
Lemma c_bit (m : prog allocated_bit) (h : allocated_bit -> Boolean) (F : form * N) : csz m (fun _ a k => a = 1 /\ k = 1) ->
  (forall b, fm (h b) = None) -> F = (None, 1) -> csz (let! r := m in Ret (h r)) (fop F).
Proof. intros H Hh ->. eapply csz_bind; [exact H|]. intros x a k [-> ->]. apply csz_ret. split; [rewrite Hh; reflexivity|reflexivity]. Qed.
Lemma c_ab_and a b : csz (ab_and a b) (fun _ a k => a = 1 /\ k = 1).
Proof. unfold ab_and. alloc1. enf1. apply csz_ret. split; reflexivity. Qed.
Lemma c_ab_and_not a b : csz (ab_and_not a b) (fun _ a k => a = 1 /\ k = 1).
Proof. unfold ab_and_not. alloc1. enf1. apply csz_ret. split; reflexivity. Qed.
Lemma c_ab_nor a b : csz (ab_nor a b) (fun _ a k => a = 1 /\ k = 1).
Proof. unfold ab_nor. alloc1. enf1. apply csz_ret. split; reflexivity. Qed.
Lemma c_ab_xor a b : csz (ab_xor a b) (fun _ a k => a = 1 /\ k = 1).
Proof. unfold ab_xor. alloc1. enf1. apply csz_ret. split; reflexivity. Qed.
Lemma c_ab_alloc w : csz (ab_alloc w) (fun _ a k => a = 1 /\ k = 1).
Proof. unfold ab_alloc. alloc1. enf1. apply csz_ret. split; reflexivity. Qed.
Lemma c_and a b : csz (bool_and a b) (fop (fand (fm a) (fm b))).
Proof.
  destruct a as [a|a|[|]], b as [b|b|[|]]; unfold bool_and; ccase; apply c_bit; auto using c_ab_and, c_ab_and_not, c_ab_nor.
Qed.
Lemma c_xor a b : csz (bool_xor a b) (fop (fxor (fm a) (fm b))).
Proof. destruct a as [a|a|[|]], b as [b|b|[|]]; unfold bool_xor; ccase; apply c_bit; auto using c_ab_xor. Qed.
Lemma fm_not a : fm (bool_not a) = fnot (fm a).
Proof. destruct a; reflexivity. Qed.
Lemma c_and_not a b F : F = fand (fm a) (fm b) -> csz (let! r := bool_and a b in Ret (bool_not r)) (fop (fneg F)).
Proof.
  intros ->. eapply csz_bind; [apply c_and|]. intros x n k [H ->]. apply csz_ret. rewrite N.add_0_r. split; [|reflexivity].
  rewrite H, fm_not. reflexivity.
Qed.
Lemma c_and' a b F : F = fand (fm a) (fm b) -> csz (bool_and a b) (fop F).
Proof. intros ->. apply c_and. Qed.
Lemma c_ch_general a b c : csz (ch_general a b c) (fop (None, 1)).
Proof. unfold ch_general. cbv zeta. alloc1. enf1. apply csz_ret. split; reflexivity. Qed.
Lemma c_maj_general a b c : fm b = None -> fm c = None -> csz (maj_general a b c) (fop (None, 2)).
Proof.
  intros Hb Hc. unfold maj_general. cbv zeta. alloc1. eapply csz_bind; [apply csz_ns, c_and|]. rewrite Hb, Hc. intros x n k [H ->].
  injection H as _ <-. enf1. apply csz_ret. split; reflexivity.
Qed.
Lemma c_ch a b c : csz (bool_ch a b c) (fop (fch (fm a) (fm b) (fm c))).
Proof.
  destruct a as [a|a|[|]], b as [b|b|[|]], c as [c|c|[|]]; unfold bool_ch; cbn [fm fch];
    first [apply csz_ret; split; reflexivity | apply c_ch_general | apply c_and_not; reflexivity | apply c_and'; reflexivity].
Qed.
Lemma c_maj a b c : csz (bool_maj a b c) (fop (fmaj (fm a) (fm b) (fm c))).
Proof.
  destruct a as [a|a|[|]], b as [b|b|[|]], c as [c|c|[|]]; unfold bool_maj; cbn [fm fmaj];
    first [apply csz_ret; split; reflexivity | apply c_maj_general; reflexivity | apply c_and_not; reflexivity | apply c_and'; reflexivity].
Qed.

Definition fop_list (F : word * N) (r : list Boolean) (a k : N) : Prop := F = (fms r, a) /\ k = a.
Lemma c_zip (f : Boolean -> Boolean -> prog Boolean) (g : form -> form -> form * N)
  (H : forall a b, csz (f a b) (fop (g (fm a) (fm b)))) nm : forall a b i,
  csz (mapM (fun p => ns (Nmi nm (fst p) "") (f (fst (snd p)) (snd (snd p)))) (combine (seq i (List.length a)) (combine a b)))
      (fop_list (fzip g (fms a) (fms b))).
Proof.
  induction a as [|x a IH]; intros b i; cbn [List.length seq combine mapM fms map fzip]; [apply csz_ret; split; reflexivity|].
  destruct b as [|y b]; cbn [combine mapM fms map fzip]; [apply csz_ret; split; reflexivity|].
  eapply csz_bind; [apply csz_ns, H|]. cbn [fst snd]. intros r n k [HF ->].
  eapply csz_bind; [apply IH|]. intros l m k [HL ->]. apply csz_ret. unfold fms in HL. rewrite HF. unfold fop_list, fms. rewrite HL, N.add_0_r. split; reflexivity.
Qed.
Lemma c_zip3 (f : Boolean -> Boolean -> Boolean -> prog Boolean) (g : form -> form -> form -> form * N)
  (H : forall a b c, csz (f a b c) (fop (g (fm a) (fm b) (fm c)))) nm : forall a b c i,
  csz (mapM (fun p => ns (Nmi nm (fst p) "") (f (fst (snd p)) (fst (snd (snd p))) (snd (snd (snd p))))) (combine (seq i (List.length a)) (combine a (combine b c))))
      (fop_list (fzip3 g (fms a) (fms b) (fms c))).
Proof.
  induction a as [|x a IH]; intros b c i; cbn [List.length seq combine mapM fms map fzip3]; [apply csz_ret; split; reflexivity|].
  destruct b as [|y b]; cbn [combine mapM fms map fzip3]; [apply csz_ret; split; reflexivity|].
  destruct c as [|z c]; cbn [combine mapM fms map fzip3]; [apply csz_ret; split; reflexivity|].
  eapply csz_bind; [apply csz_ns, H|]. cbn [fst snd]. intros r n k [HF ->].
  eapply csz_bind; [apply IH|]. intros l m k [HL ->]. apply csz_ret. unfold fms in HL. rewrite HF. unfold fop_list, fms. rewrite HL, N.add_0_r. split; reflexivity.
Qed.

(** Words. *)
Definition fw (u : u32) : word := fms (u_bits u).
Definition same_bits (b : N) (u : u32) (w : word) (st : est) : Prop := fw u = w /\ e_bits st = b.
Lemma sim_tick (m : prog u32) (F : word * N) st b : e_bits st = b -> csz m (fun u a k => F = (fw u, a) /\ k = a) -> sim m (mtick F) st (same_bits b).
Proof.
  intros Hb H r st' He. unfold mtick in He. destruct F as [w n]. injection He as <- <-. eapply csz_weak; [exact H|].
  intros x a k [HF ->]. injection HF as -> ->. cbn. unfold same_bits. cbn. auto.
Qed.
Lemma s_xor a b st n : e_bits st = n -> sim (u_xor a b) (exor (fw a) (fw b)) st (same_bits n).
Proof.
  intros H. apply sim_tick; [exact H|]. unfold u_xor, zip_bits. eapply csz_bind; [apply (c_zip _ _ c_xor)|].
  intros l x k [HL ->]. apply csz_ret. rewrite N.add_0_r. split; [exact HL|reflexivity].
Qed.
Lemma s_ch a b c st n : e_bits st = n -> sim (u_ch a b c) (ech (fw a) (fw b) (fw c)) st (same_bits n).
Proof.
  intros H. apply sim_tick; [exact H|]. unfold u_ch, u_triop, zip3_bits. eapply csz_bind; [apply (c_zip3 _ _ c_ch)|].
  intros l x k [HL ->]. apply csz_ret. rewrite N.add_0_r. split; [exact HL|reflexivity].
Qed.
Lemma s_maj a b c st n : e_bits st = n -> sim (u_maj a b c) (emaj (fw a) (fw b) (fw c)) st (same_bits n).
Proof.
  intros H. apply sim_tick; [exact H|]. unfold u_maj, u_triop, zip3_bits. eapply csz_bind; [apply (c_zip3 _ _ c_maj)|].
  intros l x k [HL ->]. apply csz_ret. rewrite N.add_0_r. split; [exact HL|reflexivity].
Qed.
Lemma map_firstn {A B} (f : A -> B) n : forall l, map f (firstn n l) = firstn n (map f l).
Proof. induction n; intros [|x l]; cbn; f_equal; auto. Qed.
Lemma map_skipn {A B} (f : A -> B) n : forall l, map f (skipn n l) = skipn n (map f l).
Proof. induction n; intros [|x l]; cbn; auto. Qed.
Lemma fw_rotr k u : fw (u_rotr k u) = frotr k (fw u).
Proof. unfold fw, fms, u_rotr, frotr. cbn [u_bits]. rewrite map_firstn, map_app, map_skipn. reflexivity. Qed.
Lemma fw_shr k u : fw (u_shr k u) = fshr k (fw u).
Proof.
  unfold fw, fms, u_shr, fshr. cbn [u_bits]. rewrite map_firstn, map_app, map_skipn. do 2 f_equal.
  clear. induction k; cbn; f_equal; auto.
Qed.
Lemma fw_constant v : fw (u_constant v) = fconst v.
Proof. unfold fw, fms, u_constant, fconst. cbn [u_bits]. rewrite map_map. reflexivity. Qed.
Lemma fcst_fw u : fcst (fw u) = forallb is_constant (u_bits u).
Proof. unfold fcst, fw, fms. induction (u_bits u) as [|x l IH]; cbn; [reflexivity|]. rewrite IH. destruct x; reflexivity. Qed.

(** Sums. *)
Definition cap_ok (cap : N) : Prop := N.of_nat CAPACITY = cap.
Definition mqb (q : meq) : N := N.of_nat (mq_bits q).
Definition same_sum (p : meq * u32) (w : word) (st : est) : Prop := fw (snd p) = w /\ e_bits st = mqb (fst p).
Lemma c_accumulate q : csz (mq_accumulate q) (fun q' a k => mq_bits q' = 0%nat /\ a = 0 /\ k = 1).
Proof. unfold mq_accumulate. enf1. apply csz_ret. auto. Qed.
Lemma inj_log2 n : Z.of_N (N.log2 n) = Z.log2 (Z.of_N n).
Proof. destruct n as [|[p|p|]]; reflexivity. Qed.
Lemma s_addmany cap q ops st : cap_ok cap -> e_bits st = mqb q ->
  sim (u_addmany q ops) (eadd cap (map fw ops)) st same_sum.
Proof.
  intros HC HB. unfold u_addmany, eadd.
  destruct (NUM_BITS <? 64)%nat; [apply sim_crash|]. destruct (List.length ops <? 2)%nat eqn:L2; [apply sim_crash|].
  destruct (10 <? List.length ops)%nat; [apply sim_crash|]. cbv zeta. rewrite map_length. apply Nat.ltb_ge in L2.
  replace (forallb fcst (map fw ops)) with (forallb (fun u => forallb is_constant (u_bits u)) ops).
  2:{ clear. induction ops as [|u ops IH]; cbn [map forallb]; [reflexivity|]. rewrite IH, fcst_fw. reflexivity. }
  destruct (forallb _ ops); [intros ? ? He; discriminate He|]. intros r st' He.
  set (n := Z.to_nat (Z.log2 (Z.of_nat (List.length ops) * 4294967295) + 1)) in *.
  set (m := N.log2 (N.of_nat (List.length ops) * 4294967295) + 1) in *.
  assert (Hn : N.of_nat n = m).
  { subst n m. apply N2Z.inj. rewrite nat_N_Z, Z2Nat.id by (pose proof (Z.log2_nonneg (Z.of_nat (List.length ops) * 4294967295)); lia).
    rewrite N2Z.inj_add, inj_log2, N2Z.inj_mul, nat_N_Z. reflexivity. }
  assert (Hn32 : (32 <= n)%nat).
  { assert (31 <= Z.log2 (Z.of_nat (List.length ops) * 4294967295))%Z; [|subst n; lia].
    change 31%Z with (Z.log2 4294967295). apply Z.log2_le_mono. lia. }
  clearbody n m. subst m.
  assert (K : forall v i j, csz (mapM (fun i => let! b := ns (Nmi "result bit_gadget " i "") (ab_alloc (option_map (fun v => Z.testbit v (Z.of_nat i)) v)) in Ret (BIs b)) (seq i j))
     (fun l a k => fms l = repeat None j /\ a = N.of_nat j /\ k = N.of_nat j)).
  { intros v i j. revert i. induction j as [|j IH]; intro i; cbn [seq mapM]; [apply csz_ret; auto|].
    eapply csz_bind with (P := fun b a k => fm b = None /\ a = 1 /\ k = 1).
    - eapply csz_bind; [apply csz_ns, c_ab_alloc|]. intros b a k [-> ->]. apply csz_ret. auto.
    - intros b a k (Hb & -> & ->). eapply csz_bind; [apply IH|]. intros l a k (Hl & -> & ->). apply csz_ret. split; [|lia].
      cbn [repeat]. unfold fms in *. cbn [map]. rewrite Hb, Hl. reflexivity. }
  eapply csz_bind; [apply K|]. intros l a k (Hl & -> & ->). clear K.
  assert (HW : fms (firstn 32 l) = repeat None 32).
  { unfold fms in *. rewrite map_firstn, Hl. replace n with (32 + (n - 32))%nat by lia. rewrite repeat_app, firstn_app, firstn_all2 by (rewrite repeat_length; lia).
    rewrite repeat_length, Nat.sub_diag. cbn [firstn]. apply app_nil_r. }
  unfold mq_enforce_equal. unfold cap_ok in HC. rewrite <- HC, HB in He. unfold mqb in He.
  destruct (CAPACITY <=? mq_bits q + n)%nat eqn:C1.
  - apply Nat.leb_le in C1. assert (T : (N.of_nat CAPACITY <=? N.of_nat (mq_bits q) + N.of_nat n) = true) by (apply N.leb_le; lia).
    rewrite T in He. injection He as <- <-.
    eapply csz_bind with (P := fun p a k => mq_bits p = n /\ a = 0 /\ k = 1).
    + eapply csz_bind; [apply c_accumulate|]. intros q' a k (Hq & -> & ->). rewrite Hq.
      destruct (CAPACITY <=? 0 + n)%nat; [apply csz_crash|]. cbv zeta. apply csz_ret. auto.
    + intros p a k (Hp & -> & ->). apply csz_ret. unfold same_sum, mqb, fw. cbn [e_aux e_cons e_bits fst snd u_bits]. rewrite HW, Hp. repeat split; lia.
  - apply Nat.leb_gt in C1. assert (T : (N.of_nat CAPACITY <=? N.of_nat (mq_bits q) + N.of_nat n) = false) by (apply N.leb_gt; lia).
    rewrite T in He. injection He as <- <-.
    eapply csz_bind with (P := fun p a k => mq_bits p = (mq_bits q + n)%nat /\ a = 0 /\ k = 0).
    + eapply csz_bind; [apply (csz_ret q (fun p a k => p = q /\ a = 0 /\ k = 0)); auto|]. intros q' a k (-> & -> & ->).
      destruct (CAPACITY <=? mq_bits q + n)%nat; [apply csz_crash|]. cbv zeta. apply csz_ret. auto.
    + intros p a k (Hp & -> & ->). apply csz_ret. unfold same_sum, mqb, fw. cbn [e_aux e_cons e_bits fst snd u_bits]. rewrite HW, Hp. repeat split; lia.
Qed.

(** Schedule and rounds. *)
Definition same_words (p : meq * list u32) (w : list word) (st : est) : Prop := map fw (snd p) = w /\ e_bits st = mqb (fst p).
Ltac sb := eapply sim_bind.
Ltac sx := apply sim_ns; rewrite <- ?fw_rotr, <- ?fw_shr; apply s_xor; eassumption.
Lemma s_extend cap q w ws st i : cap_ok cap -> same_words (q, w) ws st -> sim (w_extend (q, w) i) (eextend cap ws i) st same_words.
Proof.
  intros HC [<- HB]. cbn [fst snd] in *. unfold w_extend, eextend. apply sim_ns.
  sb; [apply (sim_idx fw _ _ _ (fun x r st' => fw x = r /\ e_bits st' = mqb q)); auto|]. intros a ? st1 [<- B1].
  sb; [sx|]. intros s0 ? st2 [<- B2]. sb; [sx|]. intros s0' ? st3 [<- B3].
  sb; [apply (sim_idx fw _ _ _ (fun x r st' => fw x = r /\ e_bits st' = mqb q)); auto|]. intros b ? st4 [<- B4].
  sb; [sx|]. intros s1 ? st5 [<- B5]. sb; [sx|]. intros s1' ? st6 [<- B6].
  sb; [apply (sim_idx fw _ _ _ (fun x r st' => fw x = r /\ e_bits st' = mqb q)); auto|]. intros c ? st7 [<- B7].
  sb; [apply (sim_idx fw _ _ _ (fun x r st' => fw x = r /\ e_bits st' = mqb q)); auto|]. intros d ? st8 [<- B8].
  sb; [apply sim_ns; apply (s_addmany cap q [c; s0'; d; s1'] st8 HC B8)|]. intros [q' t] ? st9 [<- B9]. cbn [fst snd] in *.
  apply sim_ret. split; [cbn [snd]; rewrite map_app; reflexivity|exact B9].
Qed.
Definition fmb (m : maybe) : fmaybe := match m with Deferred us => FD (map fw us) | Concrete u => FC (fw u) end.
Definition fmv (v : rvars) : fvars := mkF (fmb (ra v)) (fw (rb v)) (fw (rc v)) (fw (rd v)) (fmb (re v)) (fw (rf v)) (fw (rg v)) (fw (rh v)).
Lemma s_compute cap q m o st : cap_ok cap -> e_bits st = mqb q -> sim (mb_compute q m o) (ecompute cap (fmb m) (map fw o)) st same_sum.
Proof.
  intros HC HB. destruct m as [us|u]; cbn [mb_compute fmb ecompute].
  - rewrite <- map_app. apply s_addmany; assumption.
  - apply sim_ret. split; [reflexivity|exact HB].
Qed.
Definition same_vars (p : meq * rvars) (v : fvars) (st : est) : Prop := fmv (snd p) = v /\ e_bits st = mqb (fst p).
Lemma s_round cap w q v vs st i : cap_ok cap -> same_vars (q, v) vs st -> sim (sha_round w (q, v) i) (eround cap (map fw w) vs i) st same_vars.
Proof.
  intros HC [<- HB]. cbn [fst snd] in *. unfold sha_round, eround. apply sim_ns. unfold fmv; cbn [fa fb fc fd fe ff fg fh].
  sb; [apply sim_ns; apply (s_compute cap q (re v) [] st HC HB)|]. intros [q1 e] ? st1 [<- B1]. cbn [fst snd] in *.
  sb; [sx|]. intros s1 ? st2 [<- B2]. sb; [sx|]. intros s1' ? st3 [<- B3].
  sb; [apply sim_ns, s_ch; eassumption|]. intros ch ? st4 [<- B4].
  sb; [apply (sim_idx fw _ _ _ (fun x r st' => fw x = r /\ e_bits st' = mqb q1)); auto|]. intros wi ? st5 [<- B5]. cbv zeta.
  sb; [apply sim_ns; apply (s_compute cap q1 (ra v) [] st5 HC B5)|]. intros [q2 a] ? st6 [<- B6]. cbn [fst snd] in *.
  sb; [sx|]. intros s0 ? st7 [<- B7]. sb; [sx|]. intros s0' ? st8 [<- B8].
  sb; [apply sim_ns, s_maj; eassumption|]. intros maj ? st9 [<- B9].
  apply sim_ret. split; [|exact B9]. cbn [snd]. unfold fmv; cbn [ra rb rc rd re rf rg rh fmb map app]. rewrite fw_constant. reflexivity.
Qed.
Lemma chunks_map {A B} (f : A -> B) n : forall fuel l, map (map f) (chunks fuel n l) = chunks fuel n (map f l).
Proof.
  induction fuel as [|k IH]; intros l; destruct l as [|x l]; cbn [chunks map]; try reflexivity.
  rewrite IH. f_equal; [apply (map_firstn f n (x :: l))|]. f_equal. apply (map_skipn f n (x :: l)).
Qed.
Lemma c_words_in : forall l, csz (mapM u_from_be l) (fun x a k => map fw x = map (@rev form) (map fms l) /\ a = 0 /\ k = 0).
Proof.
  induction l as [|b l IH]; cbn [mapM map]; [apply csz_ret; auto|].
  eapply csz_bind with (P := fun u a k => fw u = rev (fms b) /\ a = 0 /\ k = 0).
  - unfold u_from_be. destruct (negb _); [apply csz_crash|]. apply csz_ret. unfold fw, fms; cbn [u_bits]. rewrite map_rev. auto.
  - intros u a k (Hu & -> & ->). eapply csz_bind; [exact IH|]. intros us a k (Hus & -> & ->). apply csz_ret. cbn [map]. rewrite Hu, Hus. auto.
Qed.
Definition same_cur (c : list u32) (w : list word) (st : est) : Prop := map fw c = w.
Lemma s_compress cap input cur st : cap_ok cap -> sim (sha_compress input cur) (ecompress cap (fms input) (map fw cur)) st same_cur.
Proof.
  intros HC. unfold sha_compress. destruct (negb _); [apply sim_crash|].
  destruct cur as [|h0 [|h1 [|h2 [|h3 [|h4 [|h5 [|h6 [|h7 [|h8 cur]]]]]]]]]; try apply sim_crash.
  cbn [map ecompress]. unfold sim at 1. intros r st' He.
  eapply csz_bind; [apply c_words_in|]. intros w a k (Hw & -> & ->). cbv beta.
  unfold fms in Hw. rewrite chunks_map in Hw. unfold fms in He. rewrite <- Hw in He. clear Hw.
  set (st0 := mkE 0 (e_aux st) (e_cons st)) in *.
  match type of He with ?e st0 = _ => assert (S : sim
      (let! (q, w) := foldM w_extend (seq 16 48) (mq_new, w) in
      let! (q, v) := foldM (sha_round w) (seq 0 64) (q, mkR (Concrete h0) h1 h2 h3 (Concrete h4) h5 h6 h7) in
      let! (q, o0) := ns (Nm "deferred h0 computation") (mb_compute q (ra v) [h0]) in
      let! (q, o1) := ns (Nm "new h1") (u_addmany q [h1; rb v]) in
      let! (q, o2) := ns (Nm "new h2") (u_addmany q [h2; rc v]) in
      let! (q, o3) := ns (Nm "new h3") (u_addmany q [h3; rd v]) in
      let! (q, o4) := ns (Nm "deferred h4 computation") (mb_compute q (re v) [h4]) in
      let! (q, o5) := ns (Nm "new h5") (u_addmany q [h5; rf v]) in
      let! (q, o6) := ns (Nm "new h6") (u_addmany q [h6; rg v]) in
      let! (q, o7) := ns (Nm "new h7") (u_addmany q [h7; rh v]) in
      let! _ := mq_drop q in
      Ret [o0; o1; o2; o3; o4; o5; o6; o7]) e st0 same_cur) end.
  - sb; [apply (sim_foldM _ _ same_words); [intros [q1 w1] ws st1 i Hs; apply s_extend; assumption|split; reflexivity]|].
    intros [q1 w1] ? st1 [<- B1]. cbn [fst snd] in *.
    sb; [apply (sim_foldM _ _ same_vars); [intros [q2 v2] vs st2 i Hs; apply s_round; assumption|split; [reflexivity|exact B1]]|].
    intros [q2 v] ? st2 [<- B2]. cbn [fst snd] in *. unfold fmv; cbn [fa fb fc fd fe ff fg fh].
    sb; [apply sim_ns; apply (s_compute cap q2 (ra v) [h0] _ HC B2)|]. intros [q3 o0] ? st3 [<- B3]. cbn [fst snd] in *.
    sb; [apply sim_ns; apply (s_addmany cap q3 [h1; rb v] _ HC B3)|]. intros [q4 o1] ? st4 [<- B4]. cbn [fst snd] in *.
    sb; [apply sim_ns; apply (s_addmany cap q4 [h2; rc v] _ HC B4)|]. intros [q5 o2] ? st5 [<- B5]. cbn [fst snd] in *.
    sb; [apply sim_ns; apply (s_addmany cap q5 [h3; rd v] _ HC B5)|]. intros [q6 o3] ? st6 [<- B6]. cbn [fst snd] in *.
    sb; [apply sim_ns; apply (s_compute cap q6 (re v) [h4] _ HC B6)|]. intros [q7 o4] ? st7 [<- B7]. cbn [fst snd] in *.
    sb; [apply sim_ns; apply (s_addmany cap q7 [h5; rf v] _ HC B7)|]. intros [q8 o5] ? st8 [<- B8]. cbn [fst snd] in *.
    sb; [apply sim_ns; apply (s_addmany cap q8 [h6; rg v] _ HC B8)|]. intros [q9 o6] ? st9 [<- B9]. cbn [fst snd] in *.
    sb; [apply sim_ns; apply (s_addmany cap q9 [h7; rh v] _ HC B9)|]. intros [q10 o7] ? st10 [<- B10]. cbn [fst snd] in *.
    intros r1 st11 [= <- <-]. cbn [e_aux e_cons]. rewrite B10. unfold mqb.
    eapply csz_bind with (P := fun _ a k => a = 0 /\ k = if (0 <? mq_bits q10)%nat then 1 else 0).
    + unfold mq_drop. destruct (0 <? mq_bits q10)%nat; [|apply csz_ret; auto].
      eapply csz_bind; [apply c_accumulate|]. intros q' a k (_ & -> & ->). apply csz_ret. auto.
    + intros _ a k [-> ->]. apply csz_ret. rewrite !N.add_0_r. split; [reflexivity|]. split; [|reflexivity].
      destruct (0 <? mq_bits q10)%nat eqn:D.
      * apply Nat.ltb_lt in D. replace (0 <? N.of_nat (mq_bits q10)) with true by (symmetry; apply N.ltb_lt; lia). reflexivity.
      * apply Nat.ltb_ge in D. replace (0 <? N.of_nat (mq_bits q10)) with false by (symmetry; apply N.ltb_ge; lia). lia.
  - eapply csz_weak; [apply S, He|]. subst st0. cbn [e_aux e_cons]. intros x a k (H1 & H2 & H3). auto.
Qed.
Lemma fms_pad l : fms (sha_pad l) = fpad (fms l).
Proof.
  unfold sha_pad, fpad, fms. cbv zeta. rewrite !map_app, map_length, map_map. do 3 f_equal. 
  clear. f_equal. generalize ((512 - (List.length l + 1 + 64) mod 512) mod 512)%nat. intro n. induction n; cbn [repeat map]; f_equal; auto.
Qed.
Lemma sim_fold_idx {S T A B} (f : S -> nat * A -> prog S) (g : T -> B -> M T) (h : A -> B) (R : S -> T -> est -> Prop) :
  (forall s t st p, R s t st -> sim (f s p) (g t (h (snd p))) st R) ->
  forall l i s t st, R s t st -> sim (foldM f (combine (seq i (List.length l)) l) s) (efold g (map h l) t) st R.
Proof.
  intros H. induction l as [|a l IH]; intros i s t st Hs; cbn [List.length seq combine map foldM efold]; [apply sim_ret, Hs|].
  eapply sim_bind; [apply (H _ _ _ (i, a)), Hs|]. intros x r st' Hx. apply IH, Hx.
Qed.
Lemma s_sha cap input st : cap_ok cap -> sim (sha256_r1cs input) (esha cap (fms input)) st (fun r w _ => fms r = w).
Proof.
  intros HC. unfold sha256_r1cs. destruct (negb _); [apply sim_crash|]. cbv zeta. unfold esha. rewrite <- fms_pad.
  unfold fms at 1 2. rewrite <- chunks_map, map_length.
  sb; [apply (sim_fold_idx _ _ (map fm) same_cur)|].
  - intros s t st1 [i b] Hs. cbn [fst snd]. apply sim_ns. unfold same_cur in Hs. rewrite <- Hs. apply s_compress, HC.
  - unfold same_cur. rewrite map_map. apply map_ext. apply fw_constant.
  - intros cur ws st1 Hc. apply sim_ret. unfold same_cur in Hc. rewrite <- Hc. clear.
    induction cur as [|u cur IH]; cbn [flat_map map]; [reflexivity|]. unfold fms in *. rewrite map_app, IH. f_equal.
    unfold u_into_be, fw, fms. apply map_rev.
Qed.

(** ** Inputs made of wires only *)
Definition wires (l : list Boolean) : Prop := Forall (fun b => fm b = None) l.
Lemma wires_fms l : wires l <-> fms l = repeat None (List.length l).
Proof.
  unfold wires, fms. split.
  - induction 1; cbn; f_equal; auto.
  - induction l as [|b l IH]; cbn; [constructor|]. intros [= H1 H2]. constructor; auto.
Qed.
Lemma z_sha_256 ins : CAPACITY = 254%nat -> wires ins -> List.length ins = 256%nat ->
  csz (sha256_r1cs ins) (fun r a k => (wires r /\ List.length r = 256%nat) /\ a = 25218 /\ k = 25244).
Proof.
  intros HC HW HL. apply wires_fms in HW. rewrite HL in HW.
  pose proof (s_sha 254 ins (mkE 0 0 0)) as S. rewrite HW in S. 
  assert (T : exists b, esha 254 (repeat None 256) (mkE 0 0 0) = Some (repeat None 256, mkE b 25218 25244)) by (eexists; vm_compute; reflexivity).
  destruct T as [b T]. assert (C : cap_ok 254) by (unfold cap_ok; rewrite HC; reflexivity).
  eapply csz_weak; [apply (S C _ _ T)|]. cbn [e_aux e_cons]. intros x a k (Ha & Hk & Hx). rewrite N.add_0_l in Ha, Hk. subst a k.
  assert (HLx : List.length x = 256%nat) by (rewrite <- (map_length fm x); unfold fms in Hx; rewrite Hx; apply repeat_length).
  repeat split; auto. apply wires_fms. rewrite HLx. exact Hx.
Qed.
Lemma z_sha_640 ins : CAPACITY = 254%nat -> wires ins -> List.length ins = 640%nat ->
  csz (sha256_r1cs ins) (fun r a k => (wires r /\ List.length r = 256%nat) /\ a = 51140 /\ k = 51192).
Proof.
  intros HC HW HL. apply wires_fms in HW. rewrite HL in HW.
  pose proof (s_sha 254 ins (mkE 0 0 0)) as S. rewrite HW in S. 
  assert (T : exists b, esha 254 (repeat None 640) (mkE 0 0 0) = Some (repeat None 256, mkE b 51140 51192)) by (eexists; vm_compute; reflexivity).
  destruct T as [b T]. assert (C : cap_ok 254) by (unfold cap_ok; rewrite HC; reflexivity).
  eapply csz_weak; [apply (S C _ _ T)|]. cbn [e_aux e_cons]. intros x a k (Ha & Hk & Hx). rewrite N.add_0_l in Ha, Hk. subst a k.
  assert (HLx : List.length x = 256%nat) by (rewrite <- (map_length fm x); unfold fms in Hx; rewrite Hx; apply repeat_length).
  repeat split; auto. apply wires_fms. rewrite HLx. exact Hx.
Qed.
Lemma z_compress ins : CAPACITY = 254%nat -> wires ins -> List.length ins = 512%nat ->
  csz (sha_compress ins (map u_constant H0)) (fun _ a k => a = 25814 /\ k = 25840).
Proof.
  intros HC HW HL. apply wires_fms in HW. rewrite HL in HW.
  pose proof (s_compress 254 ins (map u_constant H0) (mkE 0 0 0)) as S. rewrite HW in S. rewrite map_map in S.
  assert (T : exists o b, ecompress 254 (repeat None 512) (map (fun v => fw (u_constant v)) H0) (mkE 0 0 0) = Some (o, mkE b 25814 25840))
    by (do 2 eexists; vm_compute; reflexivity).
  destruct T as (o & b & T). assert (C : cap_ok 254) by (unfold cap_ok; rewrite HC; reflexivity).
  eapply csz_weak; [apply (S C _ _ T)|]. cbn [e_aux e_cons]. intros x a k (Ha & Hk & Hx). rewrite N.add_0_l in Ha, Hk. subst a k. auto.
Qed.
End Sim.
