(** Equalities of sums in an abelian group (matrices, vectors, numbers), by reflection: the tactic
    [abel] proves equalities that follow from the laws of addition and opposite alone. *)
From mathcomp Require Import all_ssreflect all_algebra.
Import GRing.Theory.
Set Implicit Arguments.
Unset Strict Implicit.
Unset Printing Implicit Defensive.
Local Open Scope ring_scope.

Inductive aexp := AVar of nat | AZero | AAdd of aexp & aexp | AOpp of aexp.

Section Abel.
Variable V : zmodType.
Fixpoint aeval (env : seq V) (e : aexp) : V :=
  match e with
  | AVar k => nth 0 env k
  | AZero => 0
  | AAdd a b => aeval env a + aeval env b
  | AOpp a => - aeval env a
  end.
Fixpoint acoef (e : aexp) (k : nat) : int :=
  match e with
  | AVar j => if j == k then 1 else 0
  | AZero => 0
  | AAdd a b => acoef a k + acoef b k
  | AOpp a => - acoef a k
  end.
Fixpoint aocc (e : aexp) (n : nat) : bool :=
  match e with
  | AVar j => (j < n)%N
  | AZero => true
  | AAdd a b => aocc a n && aocc b n
  | AOpp a => aocc a n
  end.
Lemma aevalE env e n : aocc e n -> aeval env e = \sum_(k < n) (nth 0 env k) *~ acoef e k.
Proof.
elim: e => [j|_|a IHa b IHb|a IHa] /=.
- move=> Hj. rewrite (bigD1 (Ordinal Hj)) //= eqxx mulr1z big1 ?addr0 // => i Hi.
  by case: eqP => [E|_]; [move: Hi; rewrite -val_eqE /= E eqxx|rewrite mulr0z].
- by rewrite big1 // => i _; rewrite mulr0z.
- by case/andP=> /IHa -> /IHb ->; rewrite -big_split; apply: eq_bigr => i _; rewrite mulrzDl.
- by move/IHa ->; rewrite -sumrN; apply: eq_bigr => i _; rewrite mulrNz.
Qed.
Fixpoint acheck (a b : aexp) (n : nat) : bool :=
  if n is k.+1 then (acoef a k == acoef b k) && acheck a b k else true.
Lemma acheckP a b n : acheck a b n -> forall k, (k < n)%N -> acoef a k = acoef b k.
Proof.
elim: n => [|n IH] //= /andP[/eqP E /IH H] k. rewrite ltnS leq_eqVlt => /orP[/eqP -> //|]. exact: H.
Qed.
Lemma abelP env a b : let n := size env in aocc a n && aocc b n && acheck a b n -> aeval env a = aeval env b.
Proof.
move=> n /andP[/andP[Ha Hb] Hc]. rewrite (aevalE env Ha) (aevalE env Hb).
by apply: eq_bigr => k _; rewrite (acheckP Hc).
Qed.
End Abel.

Ltac abel_index env x k :=
  match env with
  | nil => fail
  | ?y :: ?r => match goal with
                | _ => let _ := match goal with _ => unify x y end in constr:(k)
                | _ => abel_index r x (S k)
                end
  end.
Ltac abel_add env x :=
  match goal with
  | _ => let k := abel_index env x O in env
  | _ => constr:(rcons env x)
  end.
Ltac abel_vars env e :=
  match e with
  | @GRing.add _ ?a ?b => let env := abel_vars env a in abel_vars env b
  | @GRing.opp _ ?a => abel_vars env a
  | @GRing.zero _ => env
  | ?x => match goal with
          | _ => let k := abel_index env x O in env
          | _ => let env' := eval cbv beta iota delta [rcons] in (rcons env x) in env'
          end
  end.
Ltac abel_reify env e :=
  match e with
  | @GRing.add _ ?a ?b => let a := abel_reify env a in let b := abel_reify env b in constr:(AAdd a b)
  | @GRing.opp _ ?a => let a := abel_reify env a in constr:(AOpp a)
  | @GRing.zero _ => constr:(AZero)
  | ?x => let k := abel_index env x O in constr:(AVar k)
  end.
Ltac abel :=
  match goal with
  | |- @eq ?T ?a ?b =>
      let env := abel_vars (@nil T) a in
      let env := abel_vars env b in
      let ea := abel_reify env a in
      let eb := abel_reify env b in
      refine (@abelP _ env ea eb _); vm_compute; reflexivity
  end.

Example abel_test (R : ringType) n (a b c : 'M[R]_n) : a + b - (c - a) = b + a *+ 1 - c + a + 0.
Proof. rewrite mulr1n. abel. Qed.
