(** Rank-1 constraint systems and the free monad in which gadgets are written.
    Models the [ConstraintSystem] interface of bellpepper-core 0.4 (external crate). *)
From Coq Require Import ZArith NArith String DecimalString List.
From Verif.Model Require Import Base Sha256.
Import ListNotations.
Local Open Scope Z_scope.

(** bellpepper-core [Variable]: public inputs and auxiliary variables; input 0 is [CS::one()]. *)
Inductive var := VIn (n : nat) | VAux (n : nat).

(** bellpepper-core [LinearCombination]: a sum of coefficient * variable.
    Coefficients are integers standing for their class modulo the field modulus. *)
Definition LC := list (Z * var).

(** [CS::one()] (e.g. src/util/num.rs:70). *)
Definition ONE : var := VIn 0.
(** [LinearCombination::zero()] (e.g. src/util/num.rs:38). *)
Definition lc_zero : LC := [].
(** [LinearCombination::zero() + var] (e.g. src/util/num.rs:38). *)
Definition lc_var (v : var) : LC := [(1, v)].
(** A coefficient times [CS::one()]. *)
Definition lc_const (c : Z) : LC := [(c, ONE)].
(** [lc + lc] (e.g. src/util/num.rs:118). *)
Definition lc_add (a b : LC) : LC := a ++ b.
(** [lc + (coeff, lc)] starting from zero (e.g. src/mp/bignat.rs:1213-1222). *)
Definition lc_scale (c : Z) (a : LC) : LC := map (fun t => (c * fst t, snd t)) a.
(** [lc - lc] (e.g. src/util/num.rs:118). *)
Definition lc_sub (a b : LC) : LC := a ++ lc_scale (-1) b.

(** An assignment gives an integer (a representative of a field element) to each variable. *)
Definition assignment := var -> Z.

(** bellpepper-core [LinearCombination::eval], on representatives. *)
Fixpoint lc_eval (rho : assignment) (a : LC) : Z :=
  match a with
  | [] => 0
  | (c, v) :: a => c * rho v + lc_eval rho a
  end.

(** A rank-1 constraint [A * B = C], or the macro constraint that stands for the whole body of
    bellpepper's [sha256] gadget: the outputs are the SHA-256 digest of the inputs, both as bits. *)
Inductive constraint :=
| R1 (a b c : LC)
| ShaC (ins outs : list LC).

(** Names: a literal, or a format string with one number. *)
Inductive name := Nm (s : string) | Nmi (pre : string) (i : nat) (post : string).

(** The string that the annotation closure of a name returns (e.g. src/mp/poly.rs:60). *)
Definition render (n : name) : string :=
  match n with
  | Nm s => s
  | Nmi pre i post =>
      String.append pre (String.append (NilZero.string_of_uint (Nat.to_uint i)) post)
  end.

(** Gadget programs: the operations of [ConstraintSystem] plus error and panic.
    [Alloc inp nm w k]: [cs.alloc] ([inp = false]) or [cs.alloc_input] ([inp = true]) with the
    witness closure result [w]; [k] receives the variable and the value captured by the closure,
    which is [None] in a constraint system that never calls closures. *)
Inductive prog (A : Type) : Type :=
| Ret (a : A)
| Fail (e : err)
| Crash
| Alloc (inp : bool) (nm : name) (w : res Z) (k : var -> option Z -> prog A)
| Enforce (nm : name) (c : constraint) (k : prog A)
| Push (nm : name) (k : prog A)
| Pop (k : prog A).
Arguments Ret {A} _.
Arguments Fail {A} _.
Arguments Crash {A}.
Arguments Alloc {A} _ _ _ _.
Arguments Enforce {A} _ _ _.
Arguments Push {A} _ _.
Arguments Pop {A} _.

(** Sequencing of gadget calls: the [?] operator in a function that takes a [ConstraintSystem]. *)
Fixpoint bind {A B} (m : prog A) (f : A -> prog B) : prog B :=
  match m with
  | Ret a => f a
  | Fail e => Fail e
  | Crash => Crash
  | Alloc inp nm w k => Alloc inp nm w (fun x v => bind (k x v) f)
  | Enforce nm c k => Enforce nm c (bind k f)
  | Push nm k => Push nm (bind k f)
  | Pop k => Pop (bind k f)
  end.

Notation "'let!' x := m 'in' k" := (bind m (fun x => k))
  (at level 200, x pattern, m at level 100, k at level 200, right associativity).

(** A call that does not touch the constraint system, followed by [?]. *)
Definition lift {A} (r : res A) : prog A :=
  match r with Ok a => Ret a | Err e => Fail e | Panic => Crash end.

(** [.unwrap()] on the [Result] of a gadget: an error becomes a panic. *)
Fixpoint unwrap_prog {A} (m : prog A) : prog A :=
  match m with
  | Ret a => Ret a
  | Fail _ => Crash
  | Crash => Crash
  | Alloc inp nm w k => Alloc inp nm (unwrap_res w) (fun x v => unwrap_prog (k x v))
  | Enforce nm c k => Enforce nm c (unwrap_prog k)
  | Push nm k => Push nm (unwrap_prog k)
  | Pop k => Pop (unwrap_prog k)
  end.

(** [ConstraintSystem::alloc] (e.g. src/util/bit.rs:140-151). *)
Definition alloc (nm : name) (w : res Z) : prog (var * option Z) :=
  Alloc false nm w (fun x v => Ret (x, v)).
(** [ConstraintSystem::alloc_input] (src/util/gadget.rs:24-35). *)
Definition alloc_input (nm : name) (w : res Z) : prog (var * option Z) :=
  Alloc true nm w (fun x v => Ret (x, v)).
(** [ConstraintSystem::enforce] (e.g. src/util/num.rs:119). *)
Definition enforce (nm : name) (a b c : LC) : prog unit := Enforce nm (R1 a b c) (Ret tt).

(** [cs.namespace(|| nm)] passed to a gadget call; the namespace is left when the gadget returns. *)
Definition ns {A} (nm : name) (m : prog A) : prog A :=
  Push nm (bind m (fun a => Pop (Ret a))).

(** An iterator of gadget calls collected into a vector (e.g. src/util/num.rs:140-147). *)
Fixpoint mapM {A B} (f : A -> prog B) (l : list A) : prog (list B) :=
  match l with
  | [] => Ret []
  | a :: l => let! b := f a in let! bs := mapM f l in Ret (b :: bs)
  end.

(** A [for] loop of gadget calls that updates a variable (e.g. src/btc_validation/median.rs:33-70). *)
Fixpoint foldM {A S} (f : S -> A -> prog S) (l : list A) (s : S) : prog S :=
  match l with
  | [] => Ret s
  | a :: l => let! s' := f s a in foldM f l s'
  end.

(** A [for] loop of gadget calls (e.g. src/btc_validation/prev_block_hash.rs:32-34). *)
Fixpoint iterM {A} (f : A -> prog unit) (l : list A) : prog unit :=
  match l with
  | [] => Ret tt
  | a :: l => let! _ := f a in iterM f l
  end.

(** State of a constraint system: values of inputs and auxiliaries in order of allocation (zeros
    when closures are not called), constraints (most recent first), current namespace path
    (innermost first) and the full paths used so far. *)
Record st := mkst {
  st_in : list Z;
  st_aux : list Z;
  st_cons : list constraint;
  st_path : list string;
  st_names : list (list string)
}.

(** A new constraint system: only the input one (e.g. src/util/test_helpers.rs:12). *)
Definition st_init : st := mkst [1] [] [] [] [].

(** bellpepper-core [ConstraintSystem::alloc] and [alloc_input]: the variable returned. *)
Definition next_var (inp : bool) (s : st) : var :=
  if inp then VIn (length (st_in s)) else VAux (length (st_aux s)).

(** The full path recorded for a name. *)
Definition add_name (nm : name) (s : st) : list (list string) :=
  (render nm :: st_path s) :: st_names s.

(** bellpepper-core [ConstraintSystem::alloc] and [alloc_input]: the effect. *)
Definition push_var (inp : bool) (nm : name) (v : Z) (s : st) : st :=
  mkst (if inp then st_in s ++ [v] else st_in s)
       (if inp then st_aux s else st_aux s ++ [v])
       (st_cons s) (st_path s) (add_name nm s).

(** bellpepper-core [ConstraintSystem::enforce]: the effect. *)
Definition push_con (nm : name) (c : constraint) (s : st) : st :=
  mkst (st_in s) (st_aux s) (c :: st_cons s) (st_path s) (add_name nm s).

(** bellpepper-core [ConstraintSystem::push_namespace]. *)
Definition push_ns (nm : name) (s : st) : st :=
  mkst (st_in s) (st_aux s) (st_cons s) (render nm :: st_path s) (add_name nm s).

(** bellpepper-core [ConstraintSystem::pop_namespace]. *)
Definition pop_ns (s : st) : st :=
  mkst (st_in s) (st_aux s) (st_cons s) (tl (st_path s)) (st_names s).

(** Running a gadget.  [wit = true]: witness generation (bellpepper [TestConstraintSystem], Nova
    [SatisfyingAssignment]): closures are called and their failures propagate.
    [wit = false]: shape extraction (Nova [ShapeCS]): closures are not called.
    Name bookkeeping is recorded but has no effect here. *)
Fixpoint run {A} (wit : bool) (m : prog A) (s : st) : res A * st :=
  match m with
  | Ret a => (Ok a, s)
  | Fail e => (Err e, s)
  | Crash => (Panic, s)
  | Alloc inp nm w k =>
      if wit then
        match w with
        | Ok v => run wit (k (next_var inp s) (Some v)) (push_var inp nm v s)
        | Err e => (Err e, s)
        | Panic => (Panic, s)
        end
      else run wit (k (next_var inp s) None) (push_var inp nm 0 s)
  | Enforce nm c k => run wit k (push_con nm c s)
  | Push nm k => run wit k (push_ns nm s)
  | Pop k => run wit k (pop_ns s)
  end.

(** The assignment computed by a witness-generating run. *)
Definition asg (s : st) : assignment :=
  fun v => match v with
           | VIn n => nth n (st_in s) 0
           | VAux n => nth n (st_aux s) 0
           end.

Section Sat.
Context {E : Env}.

(** Value of a linear combination in the field. *)
Definition feval (rho : assignment) (a : LC) : Z := fmk (lc_eval rho a).

(** One constraint holds under an assignment. *)
Definition csat (rho : assignment) (c : constraint) : Prop :=
  match c with
  | R1 a b c => fmk (lc_eval rho a * lc_eval rho b) = feval rho c
  | ShaC ins outs =>
      map (feval rho) outs = map Z.b2z (sha256 (map (fun l => feval rho l =? 1) ins))
  end.

(** All constraints of a state hold, and the constant-one variable is one. *)
Definition sat (rho : assignment) (s : st) : Prop :=
  rho ONE = 1 /\ Forall (csat rho) (st_cons s).

(** Decision procedures for the examples. *)
Definition csatb (rho : assignment) (c : constraint) : bool :=
  match c with
  | R1 a b c => fmk (lc_eval rho a * lc_eval rho b) =? feval rho c
  | ShaC ins outs =>
      if list_eq_dec Z.eq_dec (map (feval rho) outs)
           (map Z.b2z (sha256 (map (fun l => feval rho l =? 1) ins))) then true else false
  end.
(** Decides [sat]; bellpepper-core [TestConstraintSystem::is_satisfied] (src/util/test_helpers.rs:16-19). *)
Definition satb (rho : assignment) (s : st) : bool :=
  (rho ONE =? 1) && forallb (csatb rho) (st_cons s).

End Sat.
