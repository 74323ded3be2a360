(** Naming: composition of calls, and the cases. *)
From Coq Require Import ZArith Bool Lia String List.
From Verif.Model Require Import Base CS TestCS.
From Verif.Spec Require Import SpecNames.
From Verif.Proofs Require Import NamesP.
Import ListNotations.

Lemma run_test_bind : forall A B (m : prog A) (f : A -> prog B) wit s,
  run_test wit (bind m f) s =
  match run_test wit m s with (Ok a, s1) => run_test wit (f a) s1 | (Err e, s1) => (Err e, s1) | (Panic, s1) => (Panic, s1) end.
Proof.
  induction m as [a|e| |inp nm w k IH|nm c k IH|nm k IH|k IH]; intros f wit s; cbn [bind run_test]; auto.
  - destruct (no_slash (render nm)); [|reflexivity]. destruct wit.
    + destruct w; auto. destruct (name_ok nm s); auto.
    + destruct (name_ok nm s); auto.
  - destruct (name_ok nm s); auto.
  - destruct (name_ok nm s); auto.
Qed.
Lemma run_bind' : forall A B (m : prog A) (f : A -> prog B) wit s,
  run wit (bind m f) s =
  match run wit m s with (Ok a, s1) => run wit (f a) s1 | (Err e, s1) => (Err e, s1) | (Panic, s1) => (Panic, s1) end.
Proof.
  induction m as [a|e| |inp nm w k IH|nm c k IH|nm k IH|k IH]; intros f wit s; cbn [bind run]; auto.
  destruct wit; [|auto]. destruct w; auto.
Qed.

(** Nothing is named [nm] in the current namespace, or below that name. *)
Definition free_name (s : st) (nm : name) : Prop :=
  forall p, In p (st_names s) -> p <> render nm :: st_path s /\ ~ below p (render nm :: st_path s).
Definition tidy_state (s : st) : Prop :=
  Forall (Forall (fun c => no_slash c = true)) (st_path s :: st_names s) /\ Forall (fun p => p <> []) (st_names s).

Lemma free_name_ok : forall s nm, tidy_state s -> no_slash (render nm) = true -> free_name s nm -> name_ok nm s = true.
Proof.
  intros s nm [Hs Hne] Fs Fr. unfold name_ok. rewrite Fs. cbn [andb].
  apply negb_true_iff. apply not_true_is_false. intro C.
  apply existsb_exists in C as (x & Hx & Ex). apply String.eqb_eq in Ex.
  apply in_map_iff in Hx as (p & <- & Hp). inversion Hs as [|? ? Hs1 Hs2]; subst.
  apply path_string_inj in Ex.
  - apply (proj1 (Fr p Hp)). symmetry. exact Ex.
  - congruence.
  - rewrite Forall_forall in Hne. apply Hne. exact Hp.
  - constructor; assumption.
  - rewrite Forall_forall in Hs2. apply Hs2. exact Hp.
Qed.

Lemma below_trans1 : forall p c path, below p (c :: path) -> below p path.
Proof. intros p c path (q & nm & ->). exists (q ++ [nm]), c. rewrite <- app_assoc. reflexivity. Qed.

(** One call in its own namespace. *)
Lemma ns_step : forall A nm (m : prog A) wit s, tidy_state s -> no_slash (render nm) = true -> free_name s nm -> well_named m ->
  run_test wit (ns nm m) s = run wit (ns nm m) s /\
  forall a s', run wit (ns nm m) s = (Ok a, s') -> st_path s' = st_path s /\
    exists new, st_names s' = new ++ st_names s /\
      Forall (fun p => p = render nm :: st_path s \/ below p (render nm :: st_path s)) new.
Proof.
  intros A nm m wit s T Hn F W. unfold ns. cbn [run_test run]. rewrite (free_name_ok s nm T Hn F).
  rewrite run_test_bind, run_bind'.
  assert (Fr : fresh_namespace (push_ns nm s)).
  { destruct T as [T1 T2]. inversion T1 as [|? ? Ta Tb]; subst. split.
    - cbn [push_ns st_names st_path]. intros p [<-|Hp].
      + split; [congruence|]. intros (q & c & H). apply (f_equal (@length string)) in H.
        rewrite app_length in H. cbn in H. lia.
      + split; [rewrite Forall_forall in T2; apply T2; exact Hp|]. apply (F p Hp).
    - cbn [push_ns st_names st_path add_name]. constructor; [constructor; assumption|].
      constructor; [constructor; assumption|exact Tb]. }
  destruct (W wit (push_ns nm s) Fr) as [W1 W2]. rewrite W1.
  destruct (run wit m (push_ns nm s)) as [[a|e|] s1] eqn:R.
  - split; [reflexivity|]. intros a' s' H. cbn [run] in H. injection H as <- <-.
    destruct (W2 a s1 eq_refl) as (P & new & N & FN). cbn [pop_ns st_path st_names].
    rewrite P. cbn [push_ns st_path tl]. split; [reflexivity|].
    exists (new ++ [render nm :: st_path s]). rewrite N. cbn [push_ns st_names]. unfold add_name.
    rewrite <- app_assoc. split; [reflexivity|]. apply Forall_app. split.
    + eapply Forall_impl; [|exact FN]. cbn [push_ns st_path]. intros p Hp. right. exact Hp.
    + constructor; [left; reflexivity|constructor].
  - split; [reflexivity|]. intros; discriminate.
  - split; [reflexivity|]. intros; discriminate.
Qed.


Definition call (c : name * prog unit) : prog unit := ns (fst c) (snd c).

(** A run that agrees with its checked version only records names without '/'. *)
Lemma run_test_tidy : forall A (m : prog A) wit s a s', tidy_state s -> run_test wit m s = (Ok a, s') -> tidy_state s'.
Proof.
  assert (G : forall nm s, tidy_state s -> name_ok nm s = true ->
    Forall (Forall (fun c => no_slash c = true)) (add_name nm s) /\ Forall (fun p => p <> []) (add_name nm s) /\
    no_slash (render nm) = true).
  { intros nm s [T1 T2] H. unfold name_ok in H. apply andb_true_iff in H as [H _]. inversion T1; subst.
    split; [constructor; [constructor; assumption|assumption]|]. split; [constructor; [congruence|assumption]|exact H]. }
  induction m as [a0|e| |inp nm w k IH|nm c k IH|nm k IH|k IH]; intros wit s a s' T H; cbn [run_test] in H; try discriminate.
  - injection H as _ <-. exact T.
  - destruct (no_slash (render nm)); [|discriminate]. destruct wit.
    + destruct w; try discriminate. destruct (name_ok nm s) eqn:N; [|discriminate].
      eapply IH; [|exact H]. destruct (G nm s T N) as (G1 & G2 & _). destruct T as [T1 T2]. inversion T1; subst.
      split; [constructor; assumption|exact G2].
    + destruct (name_ok nm s) eqn:N; [|discriminate].
      eapply IH; [|exact H]. destruct (G nm s T N) as (G1 & G2 & _). destruct T as [T1 T2]. inversion T1; subst.
      split; [constructor; assumption|exact G2].
  - destruct (name_ok nm s) eqn:N; [|discriminate].
    eapply IH; [|exact H]. destruct (G nm s T N) as (G1 & G2 & _). destruct T as [T1 T2]. inversion T1; subst.
    split; [constructor; assumption|exact G2].
  - destruct (name_ok nm s) eqn:N; [|discriminate].
    eapply IH; [|exact H]. destruct (G nm s T N) as (G1 & G2 & G3). destruct T as [T1 T2]. inversion T1; subst.
    split; [|exact G2]. constructor; [constructor; assumption|exact G1].
  - eapply IH; [|exact H]. destruct T as [T1 T2]. inversion T1; subst.
    split; [|exact T2]. constructor; [|assumption]. cbn [pop_ns st_path]. destruct (st_path s); [constructor|]. inversion H2; assumption.
Qed.

Lemma calls_ok : forall l wit s, tidy_state s -> NoDup (map (fun c => render (fst c)) l) ->
  Forall (fun c => no_slash (render (fst c)) = true /\ well_named (snd c) /\ free_name s (fst c)) l ->
  run_test wit (iterM call l) s = run wit (iterM call l) s /\
  forall a s', run wit (iterM call l) s = (Ok a, s') -> st_path s' = st_path s /\
    exists new, st_names s' = new ++ st_names s /\ Forall (fun p => below p (st_path s)) new.
Proof.
  induction l as [|c l IH]; intros wit s T ND F; cbn [iterM].
  - cbn [run_test run]. split; [reflexivity|]. intros a s' H. injection H as _ <-. split; [reflexivity|]. exists []. split; [reflexivity|constructor].
  - cbn [map] in ND. inversion ND as [|? ? N1 N2]; subst. inversion F as [|? ? (Fa & Fb & Fc) F2]; subst.
    destruct (ns_step unit (fst c) (snd c) wit s T Fa Fc Fb) as [S1 S2].
    rewrite run_test_bind, run_bind'. unfold call at 1 3 5. rewrite S1.
    destruct (run wit (ns (fst c) (snd c)) s) as [[u|e|] s1] eqn:R.
    + destruct (S2 u s1 eq_refl) as (P & new & N & FN).
      assert (T1 : tidy_state s1) by (eapply run_test_tidy; [exact T|rewrite S1; reflexivity]).
      destruct (IH wit s1 T1 N2) as [I1 I2].
      * rewrite Forall_forall in F2 |- *. intros d Hd. destruct (F2 d Hd) as (D1 & D2 & D3).
        split; [exact D1|]. split; [exact D2|]. intros p Hp. rewrite N in Hp. rewrite P.
        apply in_app_or in Hp as [Hp|Hp]; [|apply D3; exact Hp].
        assert (Ne : render (fst c) <> render (fst d)).
        { intro C. apply N1. rewrite C. apply (in_map (fun c => render (fst c))). exact Hd. }
        rewrite Forall_forall in FN. destruct (FN p Hp) as [->|(q & x & ->)].
        -- split; [intro C; injection C as C; auto|]. intros (q & x & H). apply (f_equal (@length string)) in H.
           rewrite app_length in H. cbn in H. lia.
        -- split.
           ++ intro H. apply (f_equal (@length string)) in H. rewrite app_length in H. cbn in H. lia.
           ++ intros (q' & x' & H). apply Ne.
              change (q ++ x :: render (fst c) :: st_path s) with (q ++ [x] ++ render (fst c) :: st_path s) in H.
              change (q' ++ x' :: render (fst d) :: st_path s) with (q' ++ [x'] ++ render (fst d) :: st_path s) in H.
              rewrite !app_assoc in H. apply app_cons_len in H; [|reflexivity]. apply H.
      * split; [exact I1|]. intros a s' H. destruct (I2 a s' H) as (P' & new' & N' & FN').
        rewrite P', P. split; [reflexivity|]. exists (new' ++ new). rewrite N', N, app_assoc. split; [reflexivity|].
        apply Forall_app. split; [rewrite P in FN'; exact FN'|].
        eapply Forall_impl; [|exact FN]. intros p [->|Hp]; [exists [], (render (fst c)); reflexivity|].
        apply below_trans1 in Hp. exact Hp.
    + split; [reflexivity|intros; discriminate].
    + split; [reflexivity|intros; discriminate].
Qed.

Theorem top_calls : forall l : list (name * prog unit), NoDup (map (fun c => render (fst c)) l) ->
  Forall (fun c => no_slash (render (fst c)) = true /\ well_named (snd c)) l ->
  well_named (iterM (fun c => ns (fst c) (snd c)) l).
Proof.
  intros l ND F wit s [H1 H2].
  assert (T : tidy_state s).
  { split; [exact H2|]. apply Forall_forall. intros p Hp. apply H1. exact Hp. }
  apply (calls_ok l wit s T ND).
  eapply Forall_impl; [|exact F]. intros c [A B]. split; [exact A|]. split; [exact B|].
  intros p Hp. split.
  - intros ->. apply (proj2 (H1 _ Hp)). exists [], (render (fst c)). reflexivity.
  - intro C. apply (proj2 (H1 _ Hp)). apply below_trans1 in C. exact C.
Qed.

Lemma run_names_grow : forall A (m : prog A) wit s a s', run wit m s = (Ok a, s') -> incl (st_names s) (st_names s').
Proof.
  induction m as [a0|e| |inp nm w k IH|nm c k IH|nm k IH|k IH]; intros wit s a s' H; cbn [run] in H; try discriminate.
  - injection H as _ <-. apply incl_refl.
  - destruct wit; [destruct w; try discriminate|]; apply IH in H; intros p Hp; apply H; right; exact Hp.
  - apply IH in H. intros p Hp. apply H. right. exact Hp.
  - apply IH in H. intros p Hp. apply H. right. exact Hp.
  - apply IH in H. exact H.
Qed.

(** Entering the same namespace twice panics. *)
Theorem top_twice : forall A B (m1 : prog A) (m2 : prog B) nm wit s a s', well_named m1 -> fresh_namespace s -> no_slash (render nm) = true ->
  run wit (ns nm m1) s = (Ok a, s') ->
  run_test wit (let! x := ns nm m1 in let! y := ns nm m2 in Ret (x, y)) s = (Panic, s').
Proof.
  intros A B m1 m2 nm wit s a s' W [H1 H2] Hn R.
  assert (T : tidy_state s) by (split; [exact H2|apply Forall_forall; intros p Hp; apply H1; exact Hp]).
  assert (F : free_name s nm).
  { intros p Hp. split; [intros ->; apply (proj2 (H1 _ Hp)); exists [], (render nm); reflexivity|].
    intro C. apply (proj2 (H1 _ Hp)). apply below_trans1 in C. exact C. }
  destruct (ns_step A nm m1 wit s T Hn F W) as [S1 S2]. rewrite run_test_bind, S1, R.
  destruct (S2 a s' R) as (P & new & N & FN).
  rewrite run_test_bind. unfold ns at 1. cbn [run_test].
  assert (K : name_ok nm s' = false); [|rewrite K; reflexivity].
  unfold name_ok. rewrite Hn. cbn [andb]. apply negb_false_iff. apply existsb_exists.
  exists (path_string (render nm :: st_path s)). rewrite P. split; [|apply String.eqb_refl].
  apply in_map. unfold ns in R. cbn [run] in R. apply run_names_grow in R. apply R. left. reflexivity.
Qed.
