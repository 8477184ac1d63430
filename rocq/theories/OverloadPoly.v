(** * The constructors of both [polymorphic] headers select what is intended. *)
From stdpp Require Import base list.
From Verif Require Import Overload OverloadSpec OverloadProps.

Section poly20.
Context (X : traits) (S : sane X)
  (own : forall b c, copyable X b = true -> constructible X b [Ex b c] = true)
  (lists : forall u i r, constructible X u (Ex (BList i) R :: r) = constructible X u (Ex (BList i) L :: r))
  (tags : forall q u, derived X (BTagT q u) = false).
Ltac pre _ := rewrite ?lists, ?tags; ev.
Lemma poly20_nil : what (select X (ctors_poly20 X) []) = meant (intended_polymorphic X []).
Proof using All. go S pre. Qed.
Lemma poly20_one a : what (select X (ctors_poly20 X) [a]) = meant (intended_polymorphic X [a]).
Proof using All. destruct a as [[] []|i]; go S pre. Qed.
Lemma poly20_tag q u c a r : what (select X (ctors_poly20 X) (Ex (BTagT q u) c :: a :: r)) = meant (intended_polymorphic X (Ex (BTagT q u) c :: a :: r)).
Proof using All. destruct q; destruct a as [[] ?|i]; go S pre. Qed.
Lemma poly20_other a x r : (forall c, a <> Ex BArg c) -> ~ (exists q u c, a = Ex (BTagT q u) c) -> what (select X (ctors_poly20 X) (a :: x :: r)) = meant (intended_polymorphic X (a :: x :: r)).
Proof using All. intros Ha Ht. destruct a as [[] []|i]; try solve [exfalso; by eapply Ha]; try solve [exfalso; apply Ht; eauto]; go S pre. Qed.
Lemma poly20_alloc_nil c a : what (select X (ctors_poly20 X) [Ex BArg c; a]) = meant (intended_polymorphic X [Ex BArg c; a]).
Proof using All. go S pre. Qed.
Lemma poly20_alloc_one c a x : what (select X (ctors_poly20 X) [Ex BArg c; a; x]) = meant (intended_polymorphic X [Ex BArg c; a; x]).
Proof using All. destruct x as [[] []|i]; go S pre. Qed.
Lemma poly20_alloc_tag c a q u c' x r : what (select X (ctors_poly20 X) (Ex BArg c :: a :: Ex (BTagT q u) c' :: x :: r)) = meant (intended_polymorphic X (Ex BArg c :: a :: Ex (BTagT q u) c' :: x :: r)).
Proof using All. destruct q; destruct x as [[] ?|i]; go S pre. Qed.
Lemma poly20_alloc_other c b a x r : ~ (exists q u c, a = Ex (BTagT q u) c) -> what (select X (ctors_poly20 X) (Ex BArg c :: b :: a :: x :: r)) = meant (intended_polymorphic X (Ex BArg c :: b :: a :: x :: r)).
Proof using All. intros Ht. destruct a as [[] []|i]; try solve [exfalso; apply Ht; eauto]; go S pre. Qed.
Lemma poly20_all l : what (select X (ctors_poly20 X) l) = meant (intended_polymorphic X l).
Proof using All.
  destruct l as [|a [|x r]]; [apply poly20_nil|apply poly20_one|].
  destruct (decide (exists c, a = Ex BArg c)) as [[c ->]|Ha].
  - destruct r as [|y [|z r]]; [apply poly20_alloc_nil|apply poly20_alloc_one|].
    destruct (decide (exists q u c, y = Ex (BTagT q u) c)) as [(q & u & c' & ->)|Hy]; [by apply poly20_alloc_tag|by apply poly20_alloc_other].
  - destruct (decide (exists q u c, a = Ex (BTagT q u) c)) as [(q & u & c' & ->)|Hy]; [by apply poly20_tag|apply poly20_other; [|done]]. intros c ->. apply Ha. eauto.
Qed.
End poly20.

Section poly14.
Context (X : traits) (S : sane X).
Ltac pre _ := idtac.
Lemma poly14_nil : what (select X (ctors_poly14 X) []) = meant (intended_polymorphic14 X []).
Proof using All. go S pre. Qed.
Lemma poly14_one a : what (select X (ctors_poly14 X) [a]) = meant (intended_polymorphic14 X [a]).
Proof using All. destruct a as [[] []|i]; go S pre. Qed.
Lemma poly14_tag q u c a r : what (select X (ctors_poly14 X) (Ex (BTagT q u) c :: a :: r)) = meant (intended_polymorphic14 X (Ex (BTagT q u) c :: a :: r)).
Proof using All. destruct q; destruct a as [[] ?|i]; go S pre. Qed.
Lemma poly14_other a x r : (forall c, a <> Ex BArg c) -> ~ (exists q u c, a = Ex (BTagT q u) c) -> what (select X (ctors_poly14 X) (a :: x :: r)) = meant (intended_polymorphic14 X (a :: x :: r)).
Proof using All. intros Ha Ht. destruct a as [[] []|i]; try solve [exfalso; by eapply Ha]; try solve [exfalso; apply Ht; eauto]; go S pre. Qed.
Lemma poly14_alloc_nil c a : what (select X (ctors_poly14 X) [Ex BArg c; a]) = meant (intended_polymorphic14 X [Ex BArg c; a]).
Proof using All. go S pre. Qed.
Lemma poly14_alloc_one c a x : what (select X (ctors_poly14 X) [Ex BArg c; a; x]) = meant (intended_polymorphic14 X [Ex BArg c; a; x]).
Proof using All. destruct x as [[] []|i]; go S pre. Qed.
Lemma poly14_alloc_tag c a q u c' x r : what (select X (ctors_poly14 X) (Ex BArg c :: a :: Ex (BTagT q u) c' :: x :: r)) = meant (intended_polymorphic14 X (Ex BArg c :: a :: Ex (BTagT q u) c' :: x :: r)).
Proof using All. destruct q; destruct x as [[] ?|i]; go S pre. Qed.
Lemma poly14_alloc_other c b a x r : ~ (exists q u c, a = Ex (BTagT q u) c) -> what (select X (ctors_poly14 X) (Ex BArg c :: b :: a :: x :: r)) = meant (intended_polymorphic14 X (Ex BArg c :: b :: a :: x :: r)).
Proof using All. intros Ht. destruct a as [[] []|i]; try solve [exfalso; apply Ht; eauto]; go S pre. Qed.
Lemma poly14_all l : what (select X (ctors_poly14 X) l) = meant (intended_polymorphic14 X l).
Proof using All.
  destruct l as [|a [|x r]]; [apply poly14_nil|apply poly14_one|].
  destruct (decide (exists c, a = Ex BArg c)) as [[c ->]|Ha].
  - destruct r as [|y [|z r]]; [apply poly14_alloc_nil|apply poly14_alloc_one|].
    destruct (decide (exists q u c, y = Ex (BTagT q u) c)) as [(q & u & c' & ->)|Hy]; [by apply poly14_alloc_tag|by apply poly14_alloc_other].
  - destruct (decide (exists q u c, a = Ex (BTagT q u) c)) as [(q & u & c' & ->)|Hy]; [by apply poly14_tag|apply poly14_other; [|done]]. intros c ->. apply Ha. eauto.
Qed.
End poly14.
