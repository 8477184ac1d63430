(** * The constructors of both [indirect] headers select what is intended. *)
From stdpp Require Import base list.
From Verif Require Import Overload OverloadSpec OverloadProps.

Section ind20.
Context (X : traits) (S : sane X).
Ltac pre _ := idtac.
Lemma ind20_nil : what (select X (ctors_ind20 X) []) = meant (intended_indirect X []).
Proof using All. go S pre. Qed.
Lemma ind20_one a : what (select X (ctors_ind20 X) [a]) = meant (intended_indirect X [a]).
Proof using All. destruct a as [[] []|i]; go S pre. Qed.
Lemma ind20_tag c a r : what (select X (ctors_ind20 X) (Ex BTag c :: a :: r)) = meant (intended_indirect X (Ex BTag c :: a :: r)).
Proof using All. destruct a as [[] ?|i]; go S pre. Qed.
Lemma ind20_other a x r : (forall c, a <> Ex BArg c) -> ~ (exists c, a = Ex BTag c) -> what (select X (ctors_ind20 X) (a :: x :: r)) = meant (intended_indirect X (a :: x :: r)).
Proof using All. intros Ha Ht. destruct a as [[] []|i]; try solve [exfalso; by eapply Ha]; try solve [exfalso; apply Ht; eauto]; go S pre. Qed.
Lemma ind20_alloc_nil c a : what (select X (ctors_ind20 X) [Ex BArg c; a]) = meant (intended_indirect X [Ex BArg c; a]).
Proof using All. go S pre. Qed.
Lemma ind20_alloc_one c a x : what (select X (ctors_ind20 X) [Ex BArg c; a; x]) = meant (intended_indirect X [Ex BArg c; a; x]).
Proof using All. destruct x as [[] []|i]; go S pre. Qed.
Lemma ind20_alloc_tag c a c' x r : (forall i, x :: r <> [Br i]) -> what (select X (ctors_ind20 X) (Ex BArg c :: a :: Ex BTag c' :: x :: r)) = meant (intended_indirect X (Ex BArg c :: a :: Ex BTag c' :: x :: r)).
Proof using All. intros Hb. destruct x as [[] ?|i]; destruct r as [|[? ?|?] r]; try solve [exfalso; by eapply Hb]; go S pre. Qed.
Lemma ind20_alloc_other c b a x r : ~ (exists c, a = Ex BTag c) -> what (select X (ctors_ind20 X) (Ex BArg c :: b :: a :: x :: r)) = meant (intended_indirect X (Ex BArg c :: b :: a :: x :: r)).
Proof using All. intros Ht. destruct a as [[] []|i]; try solve [exfalso; apply Ht; eauto]; go S pre. Qed.
Lemma ind20_all l : (forall c a c' i, l <> [Ex BArg c; a; Ex BTag c'; Br i]) -> what (select X (ctors_ind20 X) l) = meant (intended_indirect X l).
Proof using All.
  intros Hb. destruct l as [|a [|x r]]; [apply ind20_nil|apply ind20_one|].
  destruct (decide (exists c, a = Ex BArg c)) as [[c ->]|Ha].
  - destruct r as [|y [|z r]]; [apply ind20_alloc_nil|apply ind20_alloc_one|].
    destruct (decide (exists c, y = Ex BTag c)) as [[c' ->]|Hy]; [apply ind20_alloc_tag; intros i [= -> ->]; by eapply Hb|by apply ind20_alloc_other].
  - destruct (decide (exists c, a = Ex BTag c)) as [[c' ->]|Hy]; [by apply ind20_tag|apply ind20_other; [|done]]. intros c ->. apply Ha. eauto.
Qed.
End ind20.

Section ind14.
Context (X : traits) (S : sane X).
Ltac pre _ := idtac.
Lemma ind14_nil : what (select X (ctors_ind14 X) []) = meant (intended_indirect14 X []).
Proof using All. go S pre. Qed.
Lemma ind14_one a : what (select X (ctors_ind14 X) [a]) = meant (intended_indirect14 X [a]).
Proof using All. destruct a as [[] []|i]; go S pre. Qed.
Lemma ind14_tag c a r : what (select X (ctors_ind14 X) (Ex BTag c :: a :: r)) = meant (intended_indirect14 X (Ex BTag c :: a :: r)).
Proof using All. destruct a as [[] ?|i]; go S pre. Qed.
Lemma ind14_other a x r : (forall c, a <> Ex BArg c) -> ~ (exists c, a = Ex BTag c) -> what (select X (ctors_ind14 X) (a :: x :: r)) = meant (intended_indirect14 X (a :: x :: r)).
Proof using All. intros Ha Ht. destruct a as [[] []|i]; try solve [exfalso; by eapply Ha]; try solve [exfalso; apply Ht; eauto]; go S pre. Qed.
Lemma ind14_alloc_nil c a : what (select X (ctors_ind14 X) [Ex BArg c; a]) = meant (intended_indirect14 X [Ex BArg c; a]).
Proof using All. go S pre. Qed.
Lemma ind14_alloc_one c a x : what (select X (ctors_ind14 X) [Ex BArg c; a; x]) = meant (intended_indirect14 X [Ex BArg c; a; x]).
Proof using All. destruct x as [[] []|i]; go S pre. Qed.
Lemma ind14_alloc_tag c a c' x r : what (select X (ctors_ind14 X) (Ex BArg c :: a :: Ex BTag c' :: x :: r)) = meant (intended_indirect14 X (Ex BArg c :: a :: Ex BTag c' :: x :: r)).
Proof using All. destruct x as [[] ?|i]; go S pre. Qed.
Lemma ind14_alloc_other c b a x r : ~ (exists c, a = Ex BTag c) -> what (select X (ctors_ind14 X) (Ex BArg c :: b :: a :: x :: r)) = meant (intended_indirect14 X (Ex BArg c :: b :: a :: x :: r)).
Proof using All. intros Ht. destruct a as [[] []|i]; try solve [exfalso; apply Ht; eauto]; go S pre. Qed.
Lemma ind14_all l : what (select X (ctors_ind14 X) l) = meant (intended_indirect14 X l).
Proof using All.
  destruct l as [|a [|x r]]; [apply ind14_nil|apply ind14_one|].
  destruct (decide (exists c, a = Ex BArg c)) as [[c ->]|Ha].
  - destruct r as [|y [|z r]]; [apply ind14_alloc_nil|apply ind14_alloc_one|].
    destruct (decide (exists c, y = Ex BTag c)) as [[c' ->]|Hy]; [by apply ind14_alloc_tag|by apply ind14_alloc_other].
  - destruct (decide (exists c, a = Ex BTag c)) as [[c' ->]|Hy]; [by apply ind14_tag|apply ind14_other; [|done]]. intros c ->. apply Ha. eauto.
Qed.
End ind14.
