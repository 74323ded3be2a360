(** Naming discipline: the proof method. *)
From Coq Require Import ZArith Bool Lia String Ascii DecimalString List.
From Coq Require DecimalNat.
From Verif.Model Require Import Base CS TestCS.
From Verif.Spec Require Import SpecNames.
Import ListNotations.
Local Open Scope string_scope.
Local Open Scope list_scope.

(** ** Paths as strings *)
Lemma no_slash_app : forall a b, no_slash (a ++ b) = no_slash a && no_slash b.
Proof.
  induction a as [|c a IH]; intro b; cbn; [reflexivity|]. rewrite IH, andb_assoc. reflexivity.
Qed.

Lemma app_slash_inj : forall a b r1 r2, no_slash a = true -> no_slash b = true ->
  (a ++ "/" ++ r1)%string = (b ++ "/" ++ r2)%string -> a = b /\ r1 = r2.
Proof.
  induction a as [|c a IH]; destruct b as [|d b]; cbn; intros r1 r2 Ha Hb H.
  - injection H as H. auto.
  - injection H as H1 H2. subst d. cbn in Hb. discriminate.
  - injection H as H1 H2. subst c. cbn in Ha. discriminate.
  - injection H as H1 H2. subst d.
    apply andb_true_iff in Ha as [_ Ha]. apply andb_true_iff in Hb as [_ Hb].
    destruct (IH b r1 r2 Ha Hb H2) as [-> ->]. auto.
Qed.

Lemma join_cons2 : forall a b l, join (a :: b :: l) = (a ++ "/" ++ join (b :: l))%string.
Proof. reflexivity. Qed.

Lemma join_inj : forall l1 l2, l1 <> [] -> l2 <> [] ->
  Forall (fun c => no_slash c = true) l1 -> Forall (fun c => no_slash c = true) l2 ->
  join l1 = join l2 -> l1 = l2.
Proof.
  induction l1 as [|a l1 IH]; intros l2 N1 N2 F1 F2 H; [congruence|].
  destruct l2 as [|b l2]; [congruence|].
  inversion F1; inversion F2; subst.
  destruct l1 as [|a' l1]; destruct l2 as [|b' l2].
  - cbn in H. congruence.
  - rewrite join_cons2 in H. change (join [a]) with a in H. subst a.
    rewrite !no_slash_app in H2. cbn in H2. rewrite andb_false_r in H2. discriminate.
  - rewrite join_cons2 in H. change (join [b]) with b in H. subst b.
    rewrite !no_slash_app in H6. cbn in H6. rewrite andb_false_r in H6. discriminate.
  - rewrite !join_cons2 in H. apply app_slash_inj in H; [|assumption|assumption].
    destruct H as [-> H]. f_equal. apply IH; auto; congruence.
Qed.

Lemma path_string_inj : forall p q, p <> [] -> q <> [] ->
  Forall (fun c => no_slash c = true) p -> Forall (fun c => no_slash c = true) q ->
  path_string p = path_string q -> p = q.
Proof.
  intros p q Np Nq Fp Fq H. unfold path_string in H.
  apply join_inj in H.
  - rewrite <- (rev_involutive p), H, rev_involutive. reflexivity.
  - intro C. apply Np. rewrite <- (rev_involutive p), C. reflexivity.
  - intro C. apply Nq. rewrite <- (rev_involutive q), C. reflexivity.
  - apply Forall_rev. exact Fp.
  - apply Forall_rev. exact Fq.
Qed.

Lemma path_string_nil : path_string [] = "".
Proof. reflexivity. Qed.

(** ** Names used per open namespace level *)
Definition fresh1 (nm : name) (stk : list (list string)) : Prop :=
  match stk with [] => False | t :: _ => no_slash (render nm) = true /\ ~ In (render nm) t end.
Definition use1 (nm : name) (stk : list (list string)) : list (list string) :=
  match stk with [] => [] | t :: r => (render nm :: t) :: r end.

Fixpoint nok {A} (m : prog A) (stk : list (list string)) (Q : list (list string) -> Prop) : Prop :=
  match m with
  | Ret _ => Q stk
  | Fail _ => True
  | Crash => True
  | Alloc _ nm _ k => fresh1 nm stk /\ forall x v, nok (k x v) (use1 nm stk) Q
  | Enforce nm _ k => fresh1 nm stk /\ nok k (use1 nm stk) Q
  | Push nm k => fresh1 nm stk /\ nok k ([] :: use1 nm stk) Q
  | Pop k => match stk with _ :: (_ :: _) as r => nok k r Q | _ => False end
  end.

Definition inv (bp : list string) (s : st) (stk : list (list string)) : Prop :=
  exists pp, st_path s = pp ++ bp /\ length stk = S (length pp) /\
  (forall i q nm, (i <= length pp)%nat -> In (q ++ nm :: skipn i (st_path s)) (st_names s) -> In nm (nth i stk [])) /\
  (forall i, (1 <= i <= length pp)%nat -> In (nth (i - 1) (st_path s) "") (nth i stk [])) /\
  Forall (Forall (fun c => no_slash c = true)) (st_path s :: st_names s) /\ Forall (fun p => p <> []) (st_names s).

Lemma inv_name_ok : forall bp s stk nm, inv bp s stk -> fresh1 nm stk -> name_ok nm s = true.
Proof.
  intros bp s stk nm (pp & Hp & Hl & Hin & Hpa & Hs & Hne) F.
  destruct stk as [|t r]; [destruct F|]. destruct F as [Fs Fi].
  unfold name_ok. rewrite Fs. cbn [andb].
  apply negb_true_iff. apply not_true_is_false. intro C.
  apply existsb_exists in C as (x & Hx & Ex). apply String.eqb_eq in Ex.
  apply in_map_iff in Hx as (p & <- & Hp').
  inversion Hs as [|? ? Hs1 Hs2]; subst.
  apply path_string_inj in Ex.
  - subst p. apply Fi. apply (Hin 0%nat [] (render nm)); [lia|]. exact Hp'.
  - congruence.
  - rewrite Forall_forall in Hne. apply Hne. exact Hp'.
  - constructor; assumption.
  - rewrite Forall_forall in Hs2. apply Hs2. exact Hp'.
Qed.

(** Adding a name at the current level. *)
Lemma app_cons_len : forall (q1 q2 : list string) a b r1 r2, length r1 = length r2 ->
  q1 ++ a :: r1 = q2 ++ b :: r2 -> q1 = q2 /\ a = b /\ r1 = r2.
Proof.
  intros q1 q2 a b r1 r2 L H.
  assert (L2 : length q1 = length q2).
  { pose proof (f_equal (@length string) H) as HL. rewrite !app_length in HL. cbn in HL. lia. }
  revert q2 L2 H. induction q1 as [|x q1 IH]; destruct q2 as [|y q2]; cbn; intros L2 H; try lia.
  - injection H as -> ->. auto.
  - injection H as -> H. destruct (IH q2) as (-> & -> & ->); auto.
Qed.

Lemma names_after : forall s stk nm pp bp,
  st_path s = pp ++ bp -> length stk = S (length pp) ->
  (forall i q nm', (i <= length pp)%nat -> In (q ++ nm' :: skipn i (st_path s)) (st_names s) -> In nm' (nth i stk [])) ->
  (forall i, (1 <= i <= length pp)%nat -> In (nth (i - 1) (st_path s) "") (nth i stk [])) ->
  forall i q nm', (i <= length pp)%nat -> In (q ++ nm' :: skipn i (st_path s)) (add_name nm s) ->
  In nm' (nth i (use1 nm stk) []).
Proof.
  intros s stk nm pp bp Hp Hl Hin Hpath i q nm' Hi H.
  destruct stk as [|t r]; [cbn in Hl; lia|]. cbn [use1].
  destruct H as [H|H].
  - destruct i as [|i].
    + cbn [skipn] in H. cbn.
      change (render nm :: st_path s) with ([] ++ render nm :: st_path s) in H.
      apply app_cons_len in H; [|reflexivity]. left. apply H.
    + specialize (Hpath (S i)). cbn [nth] in *.
      assert (G : nm' = nth i (st_path s) "").
      { pose proof (f_equal (fun l => nth (length l - S (length (skipn (S i) (st_path s)))) l "") H) as G.
        cbn beta in G. rewrite (app_length q) in G. cbn [length] in G.
        replace (length q + S (length (skipn (S i) (st_path s))) - S (length (skipn (S i) (st_path s))))%nat
          with (length q) in G by lia.
        rewrite app_nth2 in G by lia. rewrite Nat.sub_diag in G. cbn [nth] in G.
        rewrite <- G. rewrite skipn_length.
        assert (i < length (st_path s))%nat by (rewrite Hp, app_length; lia).
        replace (S (length (st_path s)) - S (length (st_path s) - S i))%nat with (S i) by lia.
        reflexivity. }
      rewrite G. replace (S i - 1)%nat with i in Hpath by lia. apply Hpath. lia.
  - specialize (Hin i q nm' Hi H). destruct i; cbn in *; auto.
Qed.

Lemma use1_len : forall nm stk, length (use1 nm stk) = length stk.
Proof. intros nm [|t r]; reflexivity. Qed.

Lemma use1_nth_in : forall nm stk i x, In x (nth i stk []) -> In x (nth i (use1 nm stk) []).
Proof. intros nm [|t r] [|i] x H; cbn in *; auto. Qed.

(** A state that differs only by a new name keeps the invariant. *)
Lemma inv_use : forall bp s stk nm s', inv bp s stk -> fresh1 nm stk ->
  st_path s' = st_path s -> st_names s' = add_name nm s -> inv bp s' (use1 nm stk).
Proof.
  intros bp s stk nm s' (pp & Hp & Hl & Hin & Hpa & Hs & Hne) F E1 E2.
  exists pp. rewrite E1, E2, use1_len. split; [exact Hp|]. split; [exact Hl|].
  inversion Hs as [|? ? Hs1 Hs2]; subst.
  split; [|split; [|split]].
  - eapply names_after; eauto.
  - intros i Hi. apply use1_nth_in. auto.
  - constructor; [exact Hs1|]. constructor; [|exact Hs2].
    destruct stk; [destruct F|]. destruct F. constructor; assumption.
  - constructor; [congruence|exact Hne].
Qed.

Lemma inv_push : forall bp s stk nm, inv bp s stk -> fresh1 nm stk -> inv bp (push_ns nm s) ([] :: use1 nm stk).
Proof.
  intros bp s stk nm I F.
  pose proof (inv_use bp s stk nm (push_con nm (R1 [] [] []) s) I F eq_refl eq_refl) as I2.
  destruct I as (pp0 & Hp0 & Hl0 & Hin0 & Hpa0 & Hs0 & Hne0).
  destruct I2 as (pp & Hp & Hl & Hin & Hpa & Hs & Hne).
  cbn [push_con st_path st_names] in *.
  exists (render nm :: pp). cbn [push_ns st_path st_names].
  split; [rewrite Hp; reflexivity|]. split; [cbn [length]; rewrite Hl; reflexivity|].
  inversion Hs as [|? ? Hs1 Hs2]; subst.
  split; [|split; [|split]].
  - intros i q nm' Hi H. destruct i as [|i].
    + cbn [skipn] in H. exfalso.
      destruct H as [H|H].
      * apply (f_equal (@length string)) in H. rewrite app_length in H. cbn in H. lia.
      * destruct stk as [|t r]; [destruct F|]. destruct F as [_ F]. apply F.
        apply (Hin0 0%nat (q ++ [nm']) (render nm)); [lia|].
        cbn [skipn]. rewrite <- app_assoc. exact H.
    + cbn [skipn] in H. cbn [nth]. apply (Hin i q nm'); [cbn in Hi; lia|exact H].
  - intros i Hi. destruct i as [|[|i]]; [lia| |].
    + cbn. destruct stk as [|t r]; [destruct F|]. cbn. auto.
    + cbn [nth]. cbn [length] in Hi.
      replace (S (S i) - 1)%nat with (S i) by lia. cbn [nth].
      specialize (Hpa (S i)). replace (S i - 1)%nat with i in Hpa by lia. apply Hpa. lia.
  - constructor; [|exact Hs2]. inversion Hs2; subst; assumption.
  - exact Hne.
Qed.

Lemma inv_pop : forall bp s t t' r, inv bp s (t :: t' :: r) -> inv bp (pop_ns s) (t' :: r).
Proof.
  intros bp s t t' r (pp & Hp & Hl & Hin & Hpa & Hs & Hne).
  destruct pp as [|c pp]; [cbn in Hl; lia|].
  exists pp. cbn [pop_ns st_path st_names]. rewrite Hp. cbn [tl app].
  inversion Hs as [|? ? Hs1 Hs2]; subst.
  split; [reflexivity|]. split; [cbn in Hl |- *; lia|]. split; [|split; [|split]].
  - intros i q nm' Hi H. specialize (Hin (S i) q nm'). rewrite Hp in Hin. cbn [app skipn nth] in Hin.
    apply Hin; [cbn; lia|exact H].
  - intros i Hi. specialize (Hpa (S i)). rewrite Hp in Hpa. cbn [nth length] in Hpa.
    replace (S i - 1)%nat with i in Hpa by lia.
    destruct i as [|i]; [lia|]. cbn [app nth] in Hpa.
    replace (S i - 1)%nat with i by lia. apply Hpa. lia.
  - constructor; [|exact Hs2]. rewrite Hp in Hs1. inversion Hs1; assumption.
  - exact Hne.
Qed.

Lemma inv_below : forall bp s stk nm, inv bp s stk -> below (render nm :: st_path s) bp.
Proof.
  intros bp s stk nm (pp & Hp & _). rewrite Hp.
  destruct (exists_last (l := render nm :: pp)) as (q & c & Hq); [congruence|].
  exists q, c. change (render nm :: pp ++ bp) with ((render nm :: pp) ++ bp). rewrite Hq, <- app_assoc. reflexivity.
Qed.

(** The method is sound. *)
Lemma nok_run : forall A (m : prog A) bp wit s stk Q, inv bp s stk -> nok m stk Q ->
  run_test wit m s = run wit m s /\ forall a s', run wit m s = (Ok a, s') ->
    (exists stk', inv bp s' stk' /\ Q stk') /\ exists new, st_names s' = new ++ st_names s /\ Forall (fun p => below p bp) new.
Proof.
  induction m as [a|e| |inp nm w k IH|nm c k IH|nm k IH|k IH]; intros bp wit s stk Q I N; cbn [nok] in N; cbn [run_test run].
  - split; [reflexivity|]. intros a' s' H. injection H as <- <-. split; [eauto|]. exists []. split; [reflexivity|constructor].
  - split; [reflexivity|]. intros; discriminate.
  - split; [reflexivity|]. intros; discriminate.
  - destruct N as [F N]. rewrite (inv_name_ok _ _ _ _ I F).
    assert (Fs : no_slash (render nm) = true) by (destruct stk; [destruct F|apply F]). rewrite Fs.
    assert (G : forall v x o, run_test wit (k x o) (push_var inp nm v s) = run wit (k x o) (push_var inp nm v s) /\ forall a s', run wit (k x o) (push_var inp nm v s) = (Ok a, s') ->
       (exists stk', inv bp s' stk' /\ Q stk') /\ exists new, st_names s' = new ++ st_names s /\ Forall (fun p => below p bp) new).
    { intros v x o. destruct (IH x o bp wit (push_var inp nm v s) (use1 nm stk) Q) as [G1 G2].
      - apply (inv_use bp s stk nm); auto.
      - apply N.
      - split; [exact G1|]. intros a s' H. destruct (G2 a s' H) as [G3 (new & G4 & G5)]. split; [exact G3|].
        exists (new ++ [render nm :: st_path s]). rewrite <- app_assoc. split; [exact G4|].
        apply Forall_app. split; [exact G5|]. constructor; [eapply inv_below; eauto|constructor]. }
    destruct wit; [|apply G]. destruct w; [apply G| |]; (split; [reflexivity|intros; discriminate]).
  - destruct N as [F N]. rewrite (inv_name_ok _ _ _ _ I F).
    destruct (IH bp wit (push_con nm c s) (use1 nm stk) Q) as [G1 G2]; [apply (inv_use bp s stk nm); auto|exact N|].
    split; [exact G1|]. intros a s' H. destruct (G2 a s' H) as [G3 (new & G4 & G5)]. split; [exact G3|].
    exists (new ++ [render nm :: st_path s]). rewrite <- app_assoc. split; [exact G4|].
    apply Forall_app. split; [exact G5|]. constructor; [eapply inv_below; eauto|constructor].
  - destruct N as [F N]. rewrite (inv_name_ok _ _ _ _ I F).
    destruct (IH bp wit (push_ns nm s) ([] :: use1 nm stk) Q) as [G1 G2]; [apply inv_push; auto|exact N|].
    split; [exact G1|]. intros a s' H. destruct (G2 a s' H) as [G3 (new & G4 & G5)]. split; [exact G3|].
    exists (new ++ [render nm :: st_path s]). rewrite <- app_assoc. split; [exact G4|].
    apply Forall_app. split; [exact G5|]. constructor; [eapply inv_below; eauto|constructor].
  - destruct stk as [|t [|t' r]]; try contradiction.
    destruct (IH bp wit (pop_ns s) (t' :: r) Q) as [G1 G2]; [eapply inv_pop; eauto|exact N|].
    split; [exact G1|]. exact G2.
Qed.

(** ** Compositional form: the names a program uses directly in its namespace *)
Definition uses {A} (m : prog A) (P : string -> Prop) : Prop :=
  forall t r, (forall x, In x t -> ~ P x) ->
  nok m (t :: r) (fun stk => exists n, stk = (n ++ t) :: r /\ forall x, In x n -> P x).

Theorem uses_well_named : forall A (m : prog A) P, uses m P -> well_named m.
Proof.
  intros A m P U wit s [Hf Hs].
  assert (I : inv (st_path s) s [[]]).
  { exists []. split; [reflexivity|]. split; [reflexivity|]. split; [|split; [|split]].
    - intros i q nm Hi H. cbn in Hi. assert (i = 0)%nat by lia. subst i. cbn [skipn] in H.
      exfalso. apply (proj2 (Hf _ H)). exists q, nm. reflexivity.
    - intros i Hi. cbn in Hi. lia.
    - exact Hs.
    - apply Forall_forall. intros p Hp. apply Hf. exact Hp. }
  destruct (nok_run A m (st_path s) wit s [[]] _ I (U [] [] (fun x H => match H with end))) as [R1 R2].
  split; [exact R1|]. intros a s' H. destruct (R2 a s' H) as [(stk' & (pp & Hp & Hl & _) & (n & -> & _)) N].
  destruct pp; [|cbn in Hl; lia]. split; [exact Hp|exact N].
Qed.

Lemma nok_mono : forall A (m : prog A) stk (Q1 Q2 : list (list string) -> Prop), nok m stk Q1 -> (forall k, Q1 k -> Q2 k) -> nok m stk Q2.
Proof.
  induction m; intros stk Q1 Q2 N W; cbn [nok] in *; auto.
  - destruct N as [F N]. split; [exact F|]. intros x v. eapply H; eauto.
  - destruct N. eauto.
  - destruct N. eauto.
  - destruct stk as [|? [|? ?]]; eauto.
Qed.

Lemma nok_bind : forall A B (m : prog A) (f : A -> prog B) stk Q R,
  nok m stk Q -> (forall a k, Q k -> nok (f a) k R) -> nok (bind m f) stk R.
Proof.
  induction m; intros f stk Q R N W; cbn [nok bind] in *; auto.
  - destruct N as [F N]. split; [exact F|]. intros x v. eapply H; eauto.
  - destruct N. eauto.
  - destruct N. eauto.
  - destruct stk as [|? [|? ?]]; eauto.
Qed.

Definition none : string -> Prop := fun _ => False.

Lemma uses_weaken : forall A (m : prog A) (P P' : string -> Prop), uses m P -> (forall x, P x -> P' x) -> uses m P'.
Proof.
  intros A m P P' U W t r H. eapply nok_mono; [apply U; intros x Hx C; apply (H x Hx); auto|].
  intros k (n & -> & Hn). exists n. auto.
Qed.

Lemma uses_ret : forall A (a : A) P, uses (Ret a) P.
Proof. intros A a P t r H. cbn. exists []. split; [reflexivity|]. intros x []. Qed.
Lemma uses_fail : forall A e P, uses (Fail e : prog A) P.
Proof. intros A e P t r H. exact I. Qed.
Lemma uses_crash : forall A P, uses (Crash : prog A) P.
Proof. intros A P t r H. exact I. Qed.
Lemma uses_lift : forall A (r : res A) P, uses (lift r) P.
Proof. intros A [a|e|] P; [apply uses_ret|apply uses_fail|apply uses_crash]. Qed.

Lemma uses_bind : forall A B (m : prog A) (f : A -> prog B) P1 P2,
  uses m P1 -> (forall a, uses (f a) P2) -> (forall x, P1 x -> P2 x -> False) ->
  uses (bind m f) (fun x => P1 x \/ P2 x).
Proof.
  intros A B m f P1 P2 U1 U2 D t r H.
  eapply nok_bind; [apply U1; intros x Hx C; apply (H x Hx); auto|].
  intros a k (n & -> & Hn).
  eapply nok_mono; [apply U2; intros x Hx C; apply in_app_or in Hx as [Hx|Hx]; [eapply D; eauto|apply (H x Hx); auto]|].
  intros k (n2 & -> & Hn2). exists (n2 ++ n). rewrite app_assoc. split; [reflexivity|].
  intros x Hx. apply in_app_or in Hx as [Hx|Hx]; auto.
Qed.

(** No name is used twice when the first part names nothing. *)
Lemma uses_bind0 : forall A B (m : prog A) (f : A -> prog B) P,
  uses m none -> (forall a, uses (f a) P) -> uses (bind m f) P.
Proof.
  intros A B m f P U1 U2. eapply uses_weaken; [apply (uses_bind A B m f none P U1 U2); intros x []|].
  intros x [[]|H]; exact H.
Qed.

Lemma uses_ns : forall A nm (m : prog A) P, no_slash (render nm) = true -> uses m P -> uses (ns nm m) (eq (render nm)).
Proof.
  intros A nm m P Hs U t r H. unfold ns. cbn [nok fresh1 use1].
  split; [split; [exact Hs|intro C; apply (H _ C); reflexivity]|].
  eapply nok_bind; [apply U; intros x []|].
  intros a k (n & -> & _). cbn. exists [render nm]. split; [reflexivity|].
  intros x [<-|[]]. reflexivity.
Qed.

Lemma uses_alloc : forall nm w, no_slash (render nm) = true -> uses (alloc nm w) (eq (render nm)).
Proof.
  intros nm w Hs t r H. cbn. split; [split; [exact Hs|intro C; apply (H _ C); reflexivity]|].
  intros _ _. exists [render nm]. split; [reflexivity|]. intros x [<-|[]]. reflexivity.
Qed.
Lemma uses_alloc_input : forall nm w, no_slash (render nm) = true -> uses (alloc_input nm w) (eq (render nm)).
Proof.
  intros nm w Hs t r H. cbn. split; [split; [exact Hs|intro C; apply (H _ C); reflexivity]|].
  intros _ _. exists [render nm]. split; [reflexivity|]. intros x [<-|[]]. reflexivity.
Qed.
Lemma uses_Enforce : forall nm c, no_slash (render nm) = true -> uses (Enforce nm c (Ret tt)) (eq (render nm)).
Proof.
  intros nm c Hs t r H. cbn. split; [split; [exact Hs|intro C; apply (H _ C); reflexivity]|].
  exists [render nm]. split; [reflexivity|]. intros x [<-|[]]. reflexivity.
Qed.
Lemma uses_enforce : forall nm a b c, no_slash (render nm) = true -> uses (enforce nm a b c) (eq (render nm)).
Proof. intros. apply uses_Enforce. assumption. Qed.

Lemma nok_unwrap : forall A (m : prog A) stk Q, nok m stk Q -> nok (unwrap_prog m) stk Q.
Proof.
  induction m; intros stk Q N; cbn [nok unwrap_prog] in *; auto.
  - destruct N. split; auto.
  - destruct N. split; auto.
  - destruct N. split; auto.
  - destruct stk as [|? [|? ?]]; auto.
Qed.
Lemma uses_unwrap : forall A (m : prog A) P, uses m P -> uses (unwrap_prog m) P.
Proof. intros A m P U t r H. apply nok_unwrap. apply U. exact H. Qed.

(** Loops: one set of names per element, pairwise disjoint. *)
Definition in_some {A} (F : A -> string -> Prop) (l : list A) : string -> Prop := fun x => exists a, In a l /\ F a x.

Fixpoint sep {A} (F : A -> string -> Prop) (l : list A) : Prop :=
  match l with
  | [] => True
  | a :: l => (forall b x, In b l -> F a x -> F b x -> False) /\ sep F l
  end.

Lemma uses_mapM : forall A B (f : A -> prog B) F l, (forall a, In a l -> uses (f a) (F a)) -> sep F l ->
  uses (mapM f l) (in_some F l).
Proof.
  induction l as [|a l IH]; intros U S; cbn [mapM]; [apply uses_ret|].
  destruct S as [S1 S2].
  apply uses_weaken with (P := fun x => F a x \/ in_some F l x).
  - apply uses_bind; [apply U; left; reflexivity| |].
    + intro b. apply uses_weaken with (P := fun x => in_some F l x \/ none x).
      * apply uses_bind; [apply IH; [intros; apply U; right; assumption|exact S2]| |].
        -- intro bs. apply uses_ret.
        -- intros x _ [].
      * intros x [H|[]]; exact H.
    + intros x H1 (b & Hb & H2). eapply S1; eauto.
  - intros x [H|(b & Hb & H)]; [exists a|exists b]; split; auto; [left; reflexivity|right; exact Hb].
Qed.

Lemma uses_foldM : forall A T (f : T -> A -> prog T) F l, (forall a s, In a l -> uses (f s a) (F a)) -> sep F l ->
  forall s, uses (foldM f l s) (in_some F l).
Proof.
  induction l as [|a l IH]; intros U S s; cbn [foldM]; [apply uses_ret|].
  destruct S as [S1 S2].
  apply uses_weaken with (P := fun x => F a x \/ in_some F l x).
  - apply uses_bind; [apply U; left; reflexivity| |].
    + intro s'. apply IH; [intros; apply U; right; assumption|exact S2].
    + intros x H1 (b & Hb & H2). eapply S1; eauto.
  - intros x [H|(b & Hb & H)]; [exists a|exists b]; split; auto; [left; reflexivity|right; exact Hb].
Qed.

Lemma uses_iterM : forall A (f : A -> prog unit) F l, (forall a, In a l -> uses (f a) (F a)) -> sep F l ->
  uses (iterM f l) (in_some F l).
Proof.
  induction l as [|a l IH]; intros U S; cbn [iterM]; [apply uses_ret|].
  destruct S as [S1 S2].
  apply uses_weaken with (P := fun x => F a x \/ in_some F l x).
  - apply uses_bind; [apply U; left; reflexivity| |].
    + intros _. apply IH; [intros; apply U; right; assumption|exact S2].
    + intros x H1 (b & Hb & H2). eapply S1; eauto.
  - intros x [H|(b & Hb & H)]; [exists a|exists b]; split; auto; [left; reflexivity|right; exact Hb].
Qed.

(** ** Patterns of names *)
(** A literal, or a prefix, one of some numbers, and a suffix. *)
Inductive pat := PL (s : string) | PN (pre : string) (ok : nat -> Prop) (post : string).
Definition digits (i : nat) : string := NilZero.string_of_uint (Nat.to_uint i).
Definition pmatch (p : pat) (x : string) : Prop :=
  match p with
  | PL s => x = s
  | PN pre ok post => exists i, ok i /\ x = (pre ++ digits i ++ post)%string
  end.
Definition pats (l : list pat) : string -> Prop := fun x => exists p, In p l /\ pmatch p x.

Definition is_digit (c : ascii) : bool := let n := nat_of_ascii c in (48 <=? n)%nat && (n <=? 57)%nat.
Fixpoint all_digits (s : string) : bool :=
  match s with EmptyString => true | String c s => is_digit c && all_digits s end.

Lemma string_of_uint_digits : forall u, all_digits (NilEmpty.string_of_uint u) = true.
Proof. induction u; cbn; auto. Qed.
Lemma digits_all : forall i, all_digits (digits i) = true.
Proof.
  intro i. unfold digits, NilZero.string_of_uint. destruct (Nat.to_uint i); try reflexivity; apply (string_of_uint_digits (_ _)).
Qed.
Lemma digits_nonempty : forall i, digits i <> "".
Proof. intros i H. unfold digits, NilZero.string_of_uint in H. destruct (Nat.to_uint i); discriminate. Qed.
Lemma to_uint_nonnil : forall i, Nat.to_uint i <> Decimal.Nil.
Proof.
  intros i C. pose proof (DecimalNat.Unsigned.of_to i) as H. rewrite C in H. cbn in H. subst i. discriminate.
Qed.
Lemma digits_inj : forall i j, digits i = digits j -> i = j.
Proof.
  intros i j H. unfold digits in H.
  assert (E : Some (Nat.to_uint i) = Some (Nat.to_uint j)).
  { rewrite <- !NilZero.usu by apply to_uint_nonnil. rewrite H. reflexivity. }
  injection E as E. apply (f_equal Nat.of_uint) in E. rewrite !DecimalNat.Unsigned.of_to in E. exact E.
Qed.

Lemma digits_no_slash : forall s, all_digits s = true -> no_slash s = true.
Proof.
  induction s as [|c s IH]; [reflexivity|]. cbn. intro H. apply andb_true_iff in H as [H1 H2].
  rewrite (IH H2), andb_true_r. apply negb_true_iff. apply not_true_is_false. intro C.
  apply Ascii.eqb_eq in C. subst c. discriminate.
Qed.

Lemma render_no_slash : forall pre i post, no_slash pre = true -> no_slash post = true ->
  no_slash (render (Nmi pre i post)) = true.
Proof.
  intros pre i post H1 H2. cbn [render]. fold (digits i). rewrite !no_slash_app, H1, H2, (digits_no_slash _ (digits_all i)). reflexivity.
Qed.

(** Does a string start with something that is not a digit (or is it empty)? *)
Definition nondigit_start (s : string) : bool := match s with EmptyString => true | String c _ => negb (is_digit c) end.

Lemma digits_app_inj : forall a b p q, all_digits a = true -> all_digits b = true ->
  nondigit_start p = true -> nondigit_start q = true -> (a ++ p)%string = (b ++ q)%string -> a = b /\ p = q.
Proof.
  induction a as [|c a IH]; destruct b as [|d b]; cbn; intros p q Ha Hb Hp Hq H.
  - auto.
  - subst p. cbn in Hp. apply andb_true_iff in Hb as [Hb _]. rewrite Hb in Hp. discriminate.
  - subst q. cbn in Hq. apply andb_true_iff in Ha as [Ha _]. rewrite Ha in Hq. discriminate.
  - injection H as -> H. apply andb_true_iff in Ha as [_ Ha]. apply andb_true_iff in Hb as [_ Hb].
    destruct (IH b p q Ha Hb Hp Hq H) as [-> ->]. auto.
Qed.

(** Two patterns that cannot match the same string, decided on their texts (index sets are not looked at). *)
Fixpoint dis_lit (pre s : string) : bool := (* literal s never has the form pre ++ digit... *)
  match pre, s with
  | EmptyString, String c _ => negb (is_digit c)
  | EmptyString, EmptyString => true
  | String _ _, EmptyString => true
  | String c pre, String d s => negb (Ascii.eqb c d) || dis_lit pre s
  end.
Fixpoint dis_num (pre1 post1 pre2 post2 : string) : bool :=
  match pre1, pre2 with
  | EmptyString, EmptyString => nondigit_start post1 && nondigit_start post2 && negb (String.eqb post1 post2)
  | EmptyString, String c _ => negb (is_digit c)
  | String c _, EmptyString => negb (is_digit c)
  | String c pre1, String d pre2 => negb (Ascii.eqb c d) || dis_num pre1 post1 pre2 post2
  end.
Definition dis (p q : pat) : bool :=
  match p, q with
  | PL s, PL s' => negb (String.eqb s s')
  | PL s, PN pre _ _ => dis_lit pre s
  | PN pre _ _, PL s => dis_lit pre s
  | PN pre1 _ post1, PN pre2 _ post2 => dis_num pre1 post1 pre2 post2
  end.

Lemma dis_lit_ok : forall pre s i post, dis_lit pre s = true -> s = (pre ++ digits i ++ post)%string -> False.
Proof.
  induction pre as [|c pre IH]; intros s i post D H.
  - cbn in H. pose proof (digits_all i) as Ha. pose proof (digits_nonempty i) as Hn.
    destruct (digits i) as [|d ds]; [congruence|]. subst s. cbn in D, Ha.
    apply andb_true_iff in Ha as [Ha _]. rewrite Ha in D. discriminate.
  - destruct s as [|d s]; [discriminate|]. cbn in H. injection H as -> H. cbn in D.
    rewrite Ascii.eqb_refl in D. cbn in D. eauto.
Qed.

Lemma dis_num_ok : forall pre1 post1 pre2 post2 i j, dis_num pre1 post1 pre2 post2 = true ->
  (pre1 ++ digits i ++ post1)%string = (pre2 ++ digits j ++ post2)%string -> False.
Proof.
  induction pre1 as [|c pre1 IH]; intros post1 pre2 post2 i j D H; destruct pre2 as [|d pre2].
  - cbn in D, H. apply andb_true_iff in D as [D D3]. apply andb_true_iff in D as [D1 D2].
    apply digits_app_inj in H; try apply digits_all; try assumption. destruct H as [_ ->].
    rewrite String.eqb_refl in D3. discriminate.
  - apply (dis_lit_ok "" (String d pre2 ++ digits j ++ post2)%string i post1); [exact D|]. symmetry. exact H.
  - apply (dis_lit_ok "" (String c pre1 ++ digits i ++ post1)%string j post2); [exact D|]. exact H.
  - cbn in H. injection H as -> H. cbn in D. rewrite Ascii.eqb_refl in D. cbn in D. eauto.
Qed.

Lemma dis_ok : forall p q x, dis p q = true -> pmatch p x -> pmatch q x -> False.
Proof.
  intros [s|pre1 ok1 post1] [s'|pre2 ok2 post2] x D; cbn [pmatch dis] in *.
  - intros -> ->. rewrite String.eqb_refl in D. discriminate.
  - intros -> (i & _ & H). eapply dis_lit_ok; eauto.
  - intros (i & _ & H) ->. eapply dis_lit_ok; eauto.
  - intros (i & _ & ->) (j & _ & H). eapply dis_num_ok; eauto.
Qed.

Definition disjoint_pats (l1 l2 : list pat) : bool := forallb (fun p => forallb (dis p) l2) l1.

Lemma disjoint_pats_ok : forall l1 l2 x, disjoint_pats l1 l2 = true -> pats l1 x -> pats l2 x -> False.
Proof.
  intros l1 l2 x D (p & Hp & Mp) (q & Hq & Mq). unfold disjoint_pats in D.
  rewrite forallb_forall in D. specialize (D p Hp). rewrite forallb_forall in D. specialize (D q Hq).
  eapply dis_ok; eauto.
Qed.

(** ** Rules with lists of patterns *)
Definition named {A} (m : prog A) (l : list pat) : Prop := uses m (pats l).

Lemma named_well_named : forall A (m : prog A) l, named m l -> well_named m.
Proof. intros A m l. apply uses_well_named. Qed.

Lemma named_ret : forall A (a : A), named (Ret a) [].
Proof. intros. apply uses_ret. Qed.
Lemma named_fail : forall A e, named (Fail e : prog A) [].
Proof. intros. apply uses_fail. Qed.
Lemma named_crash : forall A, named (Crash : prog A) [].
Proof. intros. apply uses_crash. Qed.
Lemma named_lift : forall A (r : res A), named (lift r) [].
Proof. intros. apply uses_lift. Qed.

Lemma named_incl : forall A (m : prog A) l l', named m l -> incl l l' -> named m l'.
Proof.
  intros A m l l' N I. eapply uses_weaken; [exact N|]. intros x (p & Hp & M). exists p. auto.
Qed.

Lemma named_bind : forall A B (m : prog A) (f : A -> prog B) l1 l2,
  named m l1 -> (forall a, named (f a) l2) -> disjoint_pats l1 l2 = true -> named (bind m f) (l1 ++ l2).
Proof.
  intros A B m f l1 l2 N1 N2 D. eapply uses_weaken.
  - apply uses_bind; [exact N1|exact N2|]. intros x. apply disjoint_pats_ok. exact D.
  - intros x [(p & Hp & M)|(p & Hp & M)]; exists p; split; auto; apply in_or_app; auto.
Qed.

Lemma named_unwrap : forall A (m : prog A) l, named m l -> named (unwrap_prog m) l.
Proof. intros. apply uses_unwrap. assumption. Qed.

Lemma eq_pats : forall s x, s = x -> pats [PL s] x.
Proof. intros s x <-. exists (PL s). split; [left; reflexivity|reflexivity]. Qed.
Lemma eq_pats_i : forall pre i post x, render (Nmi pre i post) = x -> pats [PN pre (eq i) post] x.
Proof.
  intros pre i post x <-. exists (PN pre (eq i) post). split; [left; reflexivity|]. exists i. auto.
Qed.

(** The pattern of a name. *)
Definition pname (nm : name) : pat := match nm with Nm s => PL s | Nmi pre i post => PN pre (eq i) post end.
Definition slashless (nm : name) : bool := match nm with Nm s => no_slash s | Nmi pre _ post => no_slash pre && no_slash post end.

Lemma slashless_ok : forall nm, slashless nm = true -> no_slash (render nm) = true.
Proof.
  intros [s|pre i post] H; [exact H|]. apply andb_true_iff in H as [H1 H2]. apply render_no_slash; assumption.
Qed.
Lemma pname_ok : forall nm x, render nm = x -> pats [pname nm] x.
Proof. intros [s|pre i post] x; [apply eq_pats|apply eq_pats_i]. Qed.

Lemma named_ns : forall A nm (m : prog A) l, named m l -> slashless nm = true -> named (ns nm m) [pname nm].
Proof.
  intros A nm m l N H. eapply uses_weaken; [eapply uses_ns; [apply slashless_ok; exact H|exact N]|]. apply pname_ok.
Qed.
Lemma named_alloc : forall nm w, slashless nm = true -> named (alloc nm w) [pname nm].
Proof.
  intros nm w H. eapply uses_weaken; [apply uses_alloc; apply slashless_ok; exact H|]. apply pname_ok.
Qed.
Lemma named_alloc_input : forall nm w, slashless nm = true -> named (alloc_input nm w) [pname nm].
Proof.
  intros nm w H. eapply uses_weaken; [apply uses_alloc_input; apply slashless_ok; exact H|]. apply pname_ok.
Qed.
Lemma named_Enforce : forall nm c, slashless nm = true -> named (Enforce nm c (Ret tt)) [pname nm].
Proof.
  intros nm c H. eapply uses_weaken; [apply uses_Enforce; apply slashless_ok; exact H|]. apply pname_ok.
Qed.
Lemma named_enforce : forall nm a b c, slashless nm = true -> named (enforce nm a b c) [pname nm].
Proof. intros. apply named_Enforce. assumption. Qed.

(** A loop whose body names things by the number [g a] of the element [a]: the body's patterns are templates
    (prefix, suffix) instantiated at that number. *)
Definition at_i (ts : list (string * string)) (i : nat) : list pat := map (fun t => PN (fst t) (eq i) (snd t)) ts.
Definition at_any (ts : list (string * string)) (ok : nat -> Prop) : list pat := map (fun t => PN (fst t) ok (snd t)) ts.

Lemma at_i_in : forall ts i x, pats (at_i ts i) x ->
  exists t, In t ts /\ x = (fst t ++ digits i ++ snd t)%string.
Proof.
  intros ts i x (p & Hp & M). apply in_map_iff in Hp as (t & <- & Ht). exists t. split; [exact Ht|].
  destruct M as (j & <- & M). exact M.
Qed.

(** Templates that cannot coincide at different numbers. *)
Definition dis_t (t t' : string * string) : bool :=
  dis_num (fst t) (snd t) (fst t') (snd t') ||
  (String.eqb (fst t) (fst t') && nondigit_start (snd t) && nondigit_start (snd t')).

Lemma pre_inj : forall (p a b : string), (p ++ a)%string = (p ++ b)%string -> a = b.
Proof. induction p as [|c p IH]; cbn; intros a b H; [exact H|]. injection H as H. auto. Qed.

Lemma dis_t_ok : forall t t' i j, dis_t t t' = true ->
  (fst t ++ digits i ++ snd t)%string = (fst t' ++ digits j ++ snd t')%string -> i = j.
Proof.
  intros t t' i j D H. apply orb_true_iff in D as [D|D]; [exfalso; eapply dis_num_ok; eauto|].
  apply andb_true_iff in D as [D D3]. apply andb_true_iff in D as [D1 D2]. apply String.eqb_eq in D1.
  rewrite D1 in H. apply pre_inj in H. apply digits_app_inj in H; try apply digits_all; try assumption.
  destruct H as [H _]. apply digits_inj. exact H.
Qed.

Definition self_dis (ts : list (string * string)) : bool := forallb (fun t => forallb (dis_t t) ts) ts.

Lemma sep_at : forall A (g : A -> nat) ts l, self_dis ts = true -> NoDup (map g l) -> sep (fun a => pats (at_i ts (g a))) l.
Proof.
  induction l as [|a l IH]; intros D N; [exact I|]. cbn [map] in N. inversion N as [|? ? N1 N2]; subst.
  split; [|apply IH; assumption].
  intros b x Hb H1 H2. apply at_i_in in H1 as (t & Ht & ->). apply at_i_in in H2 as (t' & Ht' & H).
  unfold self_dis in D. rewrite forallb_forall in D. specialize (D t Ht). rewrite forallb_forall in D.
  specialize (D t' Ht'). apply (dis_t_ok _ _ _ _ D) in H. apply N1. rewrite H. apply in_map. exact Hb.
Qed.

Lemma in_some_any : forall A (g : A -> nat) ts l x, in_some (fun a => pats (at_i ts (g a))) l x ->
  pats (at_any ts (fun i => In i (map g l))) x.
Proof.
  intros A g ts l x (a & Ha & H). apply at_i_in in H as (t & Ht & ->).
  exists (PN (fst t) (fun i => In i (map g l)) (snd t)). split.
  - apply in_map_iff. exists t. auto.
  - exists (g a). split; [apply in_map; exact Ha|reflexivity].
Qed.

Lemma named_mapM_in : forall A B (f : A -> prog B) (g : A -> nat) ts l,
  (forall a, In a l -> named (f a) (at_i ts (g a))) -> self_dis ts = true -> NoDup (map g l) ->
  named (mapM f l) (at_any ts (fun i => In i (map g l))).
Proof.
  intros A B f g ts l N D U. eapply uses_weaken; [apply uses_mapM with (F := fun a => pats (at_i ts (g a)))|].
  - exact N.
  - apply sep_at; assumption.
  - apply in_some_any.
Qed.
Lemma named_foldM_in : forall A T (f : T -> A -> prog T) (g : A -> nat) ts l s,
  (forall a s, In a l -> named (f s a) (at_i ts (g a))) -> self_dis ts = true -> NoDup (map g l) ->
  named (foldM f l s) (at_any ts (fun i => In i (map g l))).
Proof.
  intros A T f g ts l s N D U. eapply uses_weaken; [apply uses_foldM with (F := fun a => pats (at_i ts (g a)))|].
  - exact N.
  - apply sep_at; assumption.
  - apply in_some_any.
Qed.
Lemma named_iterM_in : forall A (f : A -> prog unit) (g : A -> nat) ts l,
  (forall a, In a l -> named (f a) (at_i ts (g a))) -> self_dis ts = true -> NoDup (map g l) ->
  named (iterM f l) (at_any ts (fun i => In i (map g l))).
Proof.
  intros A f g ts l N D U. eapply uses_weaken; [apply uses_iterM with (F := fun a => pats (at_i ts (g a)))|].
  - exact N.
  - apply sep_at; assumption.
  - apply in_some_any.
Qed.

Definition anyi : nat -> Prop := fun _ => True.
Lemma named_any : forall A (m : prog A) ts ok, named m (at_any ts ok) -> named m (at_any ts anyi).
Proof.
  intros A m ts ok N. eapply uses_weaken; [exact N|]. intros x (p & Hp & M).
  apply in_map_iff in Hp as (t & <- & Ht). destruct M as (i & _ & Hi).
  exists (PN (fst t) anyi (snd t)). split; [apply in_map_iff; exists t; auto|]. exists i. split; [exact I|exact Hi].
Qed.
Lemma named_mapM : forall A B (f : A -> prog B) (g : A -> nat) ts l,
  (forall a, In a l -> named (f a) (at_i ts (g a))) -> self_dis ts = true -> NoDup (map g l) ->
  named (mapM f l) (at_any ts anyi).
Proof. intros A B f g ts l N D U. eapply named_any. apply named_mapM_in with (g := g); eassumption. Qed.
Lemma named_foldM : forall A T (f : T -> A -> prog T) (g : A -> nat) ts l s,
  (forall a s, In a l -> named (f s a) (at_i ts (g a))) -> self_dis ts = true -> NoDup (map g l) ->
  named (foldM f l s) (at_any ts anyi).
Proof. intros A T f g ts l s N D U. eapply named_any. apply named_foldM_in with (g := g); eassumption. Qed.
Lemma named_iterM : forall A (f : A -> prog unit) (g : A -> nat) ts l,
  (forall a, In a l -> named (f a) (at_i ts (g a))) -> self_dis ts = true -> NoDup (map g l) ->
  named (iterM f l) (at_any ts anyi).
Proof. intros A f g ts l N D U. eapply named_any. apply named_iterM_in with (g := g); eassumption. Qed.
