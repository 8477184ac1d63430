(** * Which comparison operator an expression means: the theorems.

    The types of the operands ([cty]) are values, wrappers around any such type with any
    allocator, and classes derived from wrappers.  [select] is overload resolution over the
    friends that argument-dependent lookup finds (CompareSelect.v); [eval] the value of the
    expression. *)

From stdpp Require Import base gmap list.
From Verif Require Import Lang Common Client Compare CompareProps CompareSelect CompareSelectProps.

(** ** C49: one operator is chosen *)

(** Unless both operands are values, or classes derived from wrappers, exactly one operator is
    best: for two wrappers the one for two wrappers, of the left operand's class and with the
    operands in order; for a wrapper and something else the one for a wrapper and a value. *)
Theorem C49_unique g s1 s2 :
  match s1, s2 with
  | CVal _, CVal _ => select g s1 s2 = NoMatch
  | CInd t a, CInd _ _ => select g s1 s2 = Chosen (mkCand FII t a false)
  | (CInd t a | CDer _ t a), CVal _ | CInd t a, CDer _ _ _ => select g s1 s2 = Chosen (mkCand FIV t a false)
  | CVal _, (CInd t a | CDer _ t a) | CDer _ _ _, CInd t a =>
      select g s1 s2 = Chosen (match g with Cxx20 => mkCand FIV t a true | Cxx14 => mkCand FVI t a false end)
  | CDer _ _ _, CDer _ _ _ => select g s1 s2 = Ambiguous
  end.
Proof.
  destruct s1 as [i|t a|d t a], s2 as [j|u b|e u b].
  - apply select_vv.
  - apply select_vi.
  - apply select_vd.
  - apply select_iv.
  - apply select_ii.
  - apply select_id.
  - apply select_dv.
  - apply select_di.
  - apply select_dd.
Qed.
Print Assumptions C49_unique.

(** ** C49: what the expressions mean *)

(** [==] for wrappers and values nested to any depth, also different depths: both sides are
    unwrapped as far as they are wrapped, and valueless is equal to valueless only. *)
Theorem C49_equal {B} g (base : nat -> nat -> cmp B B) s1 s2 x y :
  (forall i j b c, v_eq (base i j) b c = v_eq (base j i) c b) ->
  plain s1 -> plain s2 -> has s1 x -> has s2 y ->
  eval g base REq s1 s2 x y = same_as (v_eq (base (core s1) (core s2))) x y.
Proof. intros Hs P1 P2 H1 H2. by apply eval_eq_n. Qed.
Print Assumptions C49_equal.

Theorem C49_not_equal {B} g (base : nat -> nat -> cmp B B) s1 s2 x y :
  (forall i j b c, v_ne (base i j) b c = rnot (v_eq (base i j) b c)) ->
  plain s1 -> plain s2 -> has s1 x -> has s2 y ->
  eval g base RNe s1 s2 x y = rnot (eval g base REq s1 s2 x y).
Proof. intros Hs P1 P2 H1 H2. by apply eval_ne_n. Qed.
Print Assumptions C49_not_equal.

(** All six operators, if those of the values are the operators of a total order; the values need
    not have [<=>]. *)
Theorem C49_order {B} g (base : nat -> nat -> cmp B B) ord r s1 s2 x y :
  ordered base ord -> plain s1 -> plain s2 -> has s1 x -> has s2 y ->
  eval g base r s1 s2 x y = VOk (holds r (order_of (ord (core s1) (core s2)) x y)).
Proof. intros HO P1 P2 H1 H2. apply (eval_ord_n g base ord HO); done. Qed.
Print Assumptions C49_order.

(** The headers agree. *)
Theorem C49_headers_agree {B} (base : nat -> nat -> cmp B B) ord r s1 s2 x y :
  ordered base ord -> plain s1 -> plain s2 -> has s1 x -> has s2 y ->
  eval Cxx14 base r s1 s2 x y = eval Cxx20 base r s1 s2 x y.
Proof. intros HO P1 P2 H1 H2. by rewrite !(C49_order _ base ord). Qed.
Print Assumptions C49_headers_agree.

(** Equality across types is symmetric and transitive. *)
Theorem C49_symmetric {B} g (base : nat -> nat -> cmp B B) s1 s2 x y :
  (forall i j b c, v_eq (base i j) b c = v_eq (base j i) c b) ->
  plain s1 -> plain s2 -> has s1 x -> has s2 y ->
  eval g base REq s1 s2 x y = eval g base REq s2 s1 y x.
Proof. intros Hs P1 P2 H1 H2. rewrite !C49_equal by done. by apply same_as_sym. Qed.
Print Assumptions C49_symmetric.

Theorem C49_transitive {B} g (base : nat -> nat -> cmp B B) s1 s2 s3 x y z :
  (forall i j b c, v_eq (base i j) b c = v_eq (base j i) c b) ->
  (forall i j k b c d, v_eq (base i j) b c = VOk true -> v_eq (base j k) c d = VOk true -> v_eq (base i k) b d = VOk true) ->
  plain s1 -> plain s2 -> plain s3 -> has s1 x -> has s2 y -> has s3 z ->
  eval g base REq s1 s2 x y = VOk true -> eval g base REq s2 s3 y z = VOk true -> eval g base REq s1 s3 x z = VOk true.
Proof.
  intros Hs Ht P1 P2 P3 H1 H2 H3. rewrite !C49_equal by done. rewrite !same_as_peel.
  destruct (peel x) as [j|b], (peel y) as [k|c], (peel z) as [l|d]; try done; [|apply Ht].
  intros [= E1%Nat.eqb_eq] [= E2%Nat.eqb_eq]. subst. by rewrite Nat.eqb_refl.
Qed.
Print Assumptions C49_transitive.

(** Comparison with a value is comparison of the value owned; valueless is before everything. *)
Theorem C49_value_partial {B} g (base : nat -> nat -> cmp B B) ord r t a j x c :
  ordered base ord -> plain t -> has (CInd t a) x ->
  eval g base r (CInd t a) (CVal j) x (VVal c) =
  match x with VSome v => eval g base r t (CVal j) v (VVal c) | _ => VOk (holds r Less) end.
Proof.
  intros HO P H. rewrite (C49_order _ base ord) by done. destruct x as [| |v]; [done|done|].
  by rewrite (C49_order _ base ord).
Qed.
Print Assumptions C49_value_partial.

(** ** C49: what is not so *)
Definition num_cmp : cmp nat nat :=
  mkCmp _ _ (fun b c => VOk (Nat.eqb b c)) (fun b c => VOk (negb (Nat.eqb b c))) (fun b c => VOk (Nat.ltb b c)) (fun b c => VOk (Nat.ltb c b))
    (fun b c => VOk (Nat.leb b c)) (fun b c => VOk (Nat.leb c b)) None.
Definition num_ord (b c : nat) : ordering := match Nat.compare b c with Eq => Equiv | Lt => Less | Gt => Greater end.
Definition num (_ _ : nat) : cmp nat nat := num_cmp.
Example C49_ex_ordered : ordered num (fun _ _ => num_ord).
Proof.
  split.
  - intros i j b c. unfold num_ord. by destruct (Nat.compare b c).
  - intros i j b c. unfold num_ord. rewrite Nat.compare_antisym. by destruct (Nat.compare b c).
  - intros i j b c. cbn [num num_cmp v_eq v_ne v_lt v_gt v_le v_ge]. unfold num_ord.
    assert (H1 := Nat.eqb_spec b c). assert (H2 := Nat.ltb_spec b c). assert (H3 := Nat.ltb_spec c b).
    assert (H4 := Nat.leb_spec b c). assert (H5 := Nat.leb_spec c b).
    destruct (Nat.compare_spec b c), H1, H2, H3, H4, H5; done || lia.
  - done.
Qed.

(** If T is itself an indirect, comparing an [indirect<T>] with a T is not comparing the T it
    owns: [x == *x] can be false, and [x == v] can be true although [x] owns nothing. *)
Theorem C49_value_refuted : exists t a,
  (forall g, exists x v, has (CInd t a) (VSome x) /\ has t v /\
     eval g num REq t t x v = VOk true /\ eval g num REq (CInd t a) t (VSome x) v = VOk false) /\
  (forall g, exists v, has t v /\ eval g num REq (CInd t a) t VNone v = VOk true).
Proof.
  exists (CInd (CVal 0) 0), 0. split.
  - intros g. exists VNone, VNone. by destruct g; vm_compute.
  - intros g. exists VNone. by destruct g; vm_compute.
Qed.
Print Assumptions C49_value_refuted.

(** Two objects of classes derived from wrappers, also of the same class, cannot be compared: the
    call is ambiguous. *)
Theorem C49_derived_ambiguous g d t a e u b : select g (CDer d t a) (CDer e u b) = Ambiguous.
Proof. apply select_dd. Qed.
Print Assumptions C49_derived_ambiguous.

(** An object of a derived class is a value on the right: a valueless wrapper is not equal to it
    though it is valueless, as two wrappers would be. *)
Theorem C49_derived_refuted : forall g, exists d t a x y,
  has (CInd t a) x /\ has (CDer d t a) y /\
  eval g num REq (CInd t a) (CInd t a) x y = VOk true /\ eval g num REq (CInd t a) (CDer d t a) x y = VOk false.
Proof. intros g. exists 0, (CVal 0), 0, VNone, VNone. by destruct g; vm_compute. Qed.
Print Assumptions C49_derived_refuted.

(** The order of the values must be total: with [<=>] of floating-point numbers, [x <= nan] is
    false for an [indirect<double>], but true for an [indirect<indirect<double>>]. *)
Definition flt_cmp : cmp (option nat) (option nat) :=
  let tw x y := match x, y with Some b, Some c => num_ord b c | _, _ => Unordered end in
  let r f x y := VOk (f (tw x y)) in
  mkCmp _ _ (r (holds REq)) (r (holds RNe)) (r (holds RLt)) (r (holds RGt)) (r (holds RLe)) (r (holds RGe)) (Some (fun x y => VOk (tw x y))).
Theorem C49_unordered_refuted : exists (base : nat -> nat -> cmp (option nat) (option nat)) v nan,
  (forall i j b c r, op_of (ops Cxx20 base 0 (CVal i) (CVal j)) r (VVal b) (VVal c) =
     VOk (holds r (match b, c with Some b, Some c => num_ord b c | _, _ => Unordered end))) /\
  eval Cxx20 base RLe (CInd (CVal 0) 0) (CVal 0) (VSome (VVal v)) (VVal nan) = VOk false /\
  eval Cxx20 base RLe (CInd (CInd (CVal 0) 0) 0) (CVal 0) (VSome (VSome (VVal v))) (VVal nan) = VOk true /\
  eval Cxx14 base RLe (CInd (CInd (CVal 0) 0) 0) (CVal 0) (VSome (VSome (VVal v))) (VVal nan) = VOk false.
Proof. exists (fun _ _ => flt_cmp), (Some 1), None. split; [by intros i j b c []|by vm_compute]. Qed.
Print Assumptions C49_unordered_refuted.

(** ** Examples: the hypotheses can be met *)
Notation i0 := (CInd (CVal 0) 0).
Notation ii := (CInd (CInd (CVal 0) 0) 1).
Example C49_ex_types : plain ii /\ has ii (VSome (VSome (VVal 3))) /\ has i0 (VSome (VVal 4)) /\ has i0 (VNone (B := nat)).
Proof. done. Qed.
Example C49_ex_values :
  map (fun g => (eval g num RLt ii i0 (VSome (VSome (VVal 3))) (VSome (VVal 4)),
                 eval g num REq ii (CVal 0) (VSome (VSome (VVal 3))) (VVal 3),
                 eval g num RGe (CVal 0) ii (VVal 3) (VSome VNone),
                 eval g num RNe ii i0 VNone VNone)) [Cxx14; Cxx20] =
  replicate 2 (VOk true, VOk true, VOk true, VOk false).
Proof. by vm_compute. Qed.
