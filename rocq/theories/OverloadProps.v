(** * Lemmas about overload resolution; copies, moves, assignment and delegation. *)
From stdpp Require Import base list.
From Verif Require Import Overload OverloadSpec.

Lemma rank_lt_irrefl r : rank_lt r r = false. Proof. by destruct r. Qed.
Lemma ics_lt_irrefl i : ics_lt i i = false.
Proof. destruct i as [[] [|[]|[]]]; done. Qed.
Lemma no_worse_refl is : no_worse is is = true.
Proof. induction is as [|i is IH]; cbn; [done|]. by rewrite ics_lt_irrefl, IH. Qed.
Lemma some_better_refl is : some_better is is = false.
Proof. induction is as [|i is IH]; cbn; [done|]. by rewrite ics_lt_irrefl, IH. Qed.
Lemma special_pack n : at_least_as_special n [PPack] [PPack] = true.
Proof. induction n; cbn; done. Qed.
Lemma special_nil n ps : at_least_as_special n [] ps = true.
Proof. by destruct n. Qed.
Lemma special_nil' n ps : at_least_as_special n ps [] = true.
Proof. by destruct n, ps. Qed.

Lemma convs_pack_expr X l : convs_pack X l = if forallb is_expr l then Some (map (fun a => match a with Ex _ c => mkI Exact (fwd_bind c) | Br _ => mkI Exact ByVal end) l) else None.
Proof. induction l as [|[b c|i] l IH]; cbn; [done| |done]. rewrite IH. by destruct (forallb is_expr l). Qed.

(** Only whether the second argument converts to the allocator matters. *)
Definition alloc_rank (a : arg) : rank := match a with Ex BAlloc _ => Exact | _ => User end.
Lemma conv_alloc X a : conv X PAlloc a = if accepts_A X a then Some (mkI (alloc_rank a) (LRef true)) else None.
Proof. destruct a as [[] c|i]; reflexivity. Qed.

(** Computing a selection: split on the traits consulted, one at a time. *)
Ltac unf := unfold ctors_ind20, ctors_ind14, ctors_poly20, ctors_poly14, assigns_ind20, assigns_ind14, assigns_poly, select, viables, viable, both, none, dfl_A, not_self, not_tag, is_T, cons_T, cons_T_list, cons_U, cons_U_list,
  intended_indirect, intended_polymorphic, intended_indirect14, intended_polymorphic14, OverloadSpec.split, rest, one,
  value_indirect, value_polymorphic, value_indirect14, value_polymorphic14, place_indirect, place_polymorphic,
  place_polymorphic14, has_A, in_place, tag_ok, unqualified, fwd_ok, fst_bas, asg_T, remove_cv_not_self, dfl_T in *.
Ltac tidy := repeat first
  [ rewrite rank_lt_irrefl | rewrite ics_lt_irrefl | rewrite no_worse_refl | rewrite some_better_refl | rewrite special_pack
  | rewrite special_nil | rewrite special_nil' | rewrite bool_decide_eq_true_2 by congruence
  | rewrite bool_decide_eq_false_2 by congruence | rewrite andb_false_r | rewrite andb_true_r ].
Ltac split1 :=
  match goal with
  | |- context [constructible ?X ?u ?l] => let H := fresh "C" in destruct (constructible X u l) eqn:H
  | |- context [default_A ?X] => let H := fresh "A" in destruct (default_A X) eqn:H
  | |- context [to_A ?X ?b ?c] => let H := fresh "A" in destruct (to_A X b c) eqn:H
  | |- context [to_self ?X ?b ?c] => let H := fresh "S" in destruct (to_self X b c) eqn:H
  | |- context [copyable ?X ?b] => let H := fresh "C" in destruct (copyable X b) eqn:H
  | |- context [derived ?X ?b] => let H := fresh "D" in destruct (derived X b) eqn:H
  | |- context [base_of ?X ?b] => let H := fresh "D" in destruct (base_of X b) eqn:H
  | |- context [list_T ?X ?b] => let H := fresh "L" in destruct (list_T X b) eqn:H
  | |- context [assignable ?X ?b] => let H := fresh "G" in destruct (assignable X b) eqn:H
  | |- context [accepts_A ?X ?b] => let H := fresh "A" in destruct (accepts_A X b) eqn:H
  | |- context [forallb is_expr ?l] => is_var l; let H := fresh "E" in destruct (forallb is_expr l) eqn:H
  | |- context [negb ?q] => is_var q; destruct q
  | |- context [bool_decide ?P] => let H := fresh "B" in destruct (decide P) as [H|H];
      [rewrite (bool_decide_eq_true_2 P) by exact H|rewrite (bool_decide_eq_false_2 P) by exact H]
  end.


Ltac sane_rw H := rewrite ?(sane_arg _ H), ?(sane_tag _ H), ?(sane_tagT _ H), ?(sane_list _ H).
Ltac fin := try reflexivity; try congruence;
  try (exfalso; match goal with B : ¬ _ |- _ => apply B; congruence end);
  try (match goal with q : bool |- _ => destruct q; reflexivity end);
  try (exfalso; match goal with O : forall b c, copyable ?X b = true -> _, Hc : copyable ?X ?b = true, Hn : constructible ?X ?b [Ex ?b ?c] = false |- _ =>
    rewrite (O b c Hc) in Hn; discriminate end);
  repeat match goal with |- context [fwd_bind ?c] => is_var c; destruct c end;
  repeat (progress (unfold better, more_special; cbn; tidy; cbn)); try reflexivity.
Ltac ev := cbn -[pick what better].
Ltac go H pre := pose proof (sane_T _ H); unf; cbn -[pick what conv better]; rewrite ?conv_alloc, ?convs_pack_expr;
  ev; sane_rw H; pre (); try (match goal with |- context [accepts_A ?X ?b] => destruct (accepts_A X b); ev; [|reflexivity] end);
  tidy; ev; repeat (split1; ev; tidy; ev); cbn; fin.

#[global] Instance is_arg_dec a : Decision (exists c, a = Ex BArg c).
Proof. destruct a as [[] ?|i]; first [left; eauto; fail|right; intros [? ?]; discriminate]. Defined.
#[global] Instance is_tag_dec a : Decision (exists c, a = Ex BTag c).
Proof. destruct a as [[] ?|i]; first [left; eauto; fail|right; intros [? ?]; discriminate]. Defined.
#[global] Instance is_tagT_dec a : Decision (exists q u c, a = Ex (BTagT q u) c).
Proof. destruct a as [[] ?|i]; first [left; eauto; fail|right; intros (? & ? & ? & ?); discriminate]. Defined.

(** ** Copies and moves, assignment *)
Lemma select_member X fs l f : select X fs l = Selects f -> In f fs.
Proof.
  unfold select. assert (Hv : forall v, In v (viables X fs l) -> In v.1 fs).
  { induction fs as [|g fs IH]; cbn; [done|]. intros v. rewrite in_app_iff. destruct (viable X g l); cbn; naive_solver. }
  assert (Hp : forall n vs before g, pick n before vs = Some g -> In g (map fst vs)).
  { clear. intros n vs. induction vs as [|v vs IH]; cbn; intros before g; [done|]. destruct (beats n v (before ++ vs)); [naive_solver|eauto]. }
  destruct (viables X fs l) as [|v vs] eqn:E; [done|]. destruct (pick (length l) [] (v :: vs)) as [g|] eqn:Eg; [|done].
  intros [= <-]. apply Hp in Eg. apply in_map_iff in Eg as (w & <- & Hw). by apply Hv.
Qed.

Ltac go1 := unfold intended_assign, intended_assign_poly, assigns_value, one in *; unf; ev; tidy; ev; repeat (split1; ev; tidy; ev); cbn; fin.
Lemma assign_ind20 X a : what (select X (assigns_ind20 X) [a]) = meant1 (intended_assign X a).
Proof. destruct a as [[] []|i]; go1. Qed.
Lemma assign_poly X a : what (select X assigns_poly [a]) = meant1 (intended_assign_poly X a).
Proof. destruct a as [[] []|i]; go1. Qed.
Lemma assign_ind14 X a : what (select X (assigns_ind14 X) [a]) =
  if bool_decide (a = Ex BSelf L) && constructible X (tv X) [a] && assignable X a then Chosen KValue false else meant1 (intended_assign X a).
Proof. destruct a as [[] []|i]; go1. Qed.

(** ** Delegation *)
Section delegation.
Context (X : traits).
Lemma in_place_kind lc u r k : in_place X lc u r = Some k -> k = KInPlace \/ k = KList.
Proof. unfold in_place. intros H. repeat case_match; naive_solver. Qed.
Lemma one_kind v a k : one X v a = Some k -> k = KCopy \/ k = KMove \/ k = KValue /\ v a = true.
Proof. unfold one, by_category. intros H. repeat case_match; naive_solver. Qed.
Lemma in_place_list u lc r : in_place X lc u r = Some KList -> in_place X lc u (relist r) = Some KList.
Proof. unfold in_place. destruct r as [|[[] ?|?] r]; cbn; intros H; repeat case_match; naive_solver. Qed.

Lemma split_false f l k : OverloadSpec.split X f l = Some (k, false) -> f false l = Some k.
Proof. unfold OverloadSpec.split. intros H. repeat case_match; unfold option_map in *; repeat case_match; naive_solver. Qed.
Lemma rest_default d v p l : rest X d v p l = Some KDefault -> (forall a r, p a r <> Some KDefault) -> l = [].
Proof. destruct l as [|a r]; [done|]. cbn. intros H Hp. destruct (p a r) eqn:E; [naive_solver|]. destruct r; [|done]. apply one_kind in H. naive_solver. Qed.
Lemma rest_value d v p l : rest X d v p l = Some KValue -> (forall a r, p a r <> Some KValue) -> exists a, l = [a] /\ p a [] = None /\ one X v a = Some KValue /\ v a = true.
Proof.
  destruct l as [|a r]; cbn; [by destruct d|]. intros H Hp. destruct (p a r) eqn:E; [naive_solver|]. destruct r; [|done].
  exists a. split_and!; try done. apply one_kind in H. naive_solver.
Qed.
Lemma rest_place d v p l k : rest X d v p l = Some k -> k = KInPlace \/ k = KList -> exists a r, l = a :: r /\ p a r = Some k.
Proof.
  destruct l as [|a r]; cbn; [destruct d; naive_solver|]. intros H Hk. exists a, r. split; [done|]. destruct (p a r) eqn:E; [done|].
  destruct r; [|done]. apply one_kind in H. naive_solver.
Qed.

Lemma delegates_ind14_ok l k l' : intended_indirect14 X l = Some (k, false) -> delegates_ind14 k false l = Some l' -> intended_indirect14 X l' = Some (k, true).
Proof.
  intros H%split_false D.
  assert (Hp : forall a r k', place_indirect X R false a r = Some k' -> k' = KInPlace \/ k' = KList).
  { unfold place_indirect. intros a r k' E. repeat case_match; try done; by eapply in_place_kind. }
  destruct k; cbn in D; injection D as <-; try reflexivity.
  - apply rest_value in H as (a & -> & _ & Ho & Hv); [|intros a r E; apply Hp in E; naive_solver].
    destruct (decide (exists c, a = Ex BTag c)) as [[c ->]|Hn]; [cbn in Hv; by rewrite andb_false_r in Hv|].
    destruct a as [[] ?|?]; cbn -[value_indirect14] in *; rewrite ?Hv; try done; try (exfalso; by eauto); by destruct c.
  - apply rest_place in H as (a & r & -> & H); [|by left]. cbn -[in_place] in *. destruct a as [[] ?|?]; try done. cbn -[in_place] in *.
    unfold has_A in *. cbn -[in_place] in *. destruct (default_A X); [|done]. by rewrite H.
  - apply rest_place in H as (a & r & -> & H); [|by right]. cbn -[in_place] in *. destruct a as [[] ?|?]; try done. cbn -[in_place] in *.
    unfold has_A in *. cbn -[in_place] in *. destruct (default_A X); [|done]. by rewrite (in_place_list _ _ _ H).
Qed.

Lemma delegates_ind20_ok l k l' : intended_indirect X l = Some (k, false) -> delegates_ind20 k false l = Some l' -> intended_indirect X l' = Some (k, true).
Proof. intros _ D. destruct k; cbn in D; try done; injection D as <-; reflexivity. Qed.

Lemma delegates_poly20_ok l k l' : intended_polymorphic X l = Some (k, false) -> delegates_poly20 k false l = Some l' -> intended_polymorphic X l' = Some (k, true).
Proof.
  intros H%split_false D.
  assert (Hp : forall a r k', place_polymorphic X false a r = Some k' -> k' = KInPlace \/ k' = KList).
  { unfold place_polymorphic. intros a r k' E. repeat case_match; try done; by eapply in_place_kind. }
  destruct k; cbn in D; injection D as <-; try reflexivity.
  - apply rest_value in H as (a & -> & Hn & Ho & Hv); [|intros a r E; apply Hp in E; naive_solver].
    assert (Hv' : value_polymorphic X true a = true).
    { unfold value_polymorphic, has_A in *. repeat case_match; try done; cbn in *; repeat (rewrite ?andb_true_iff in * ); naive_solver. }
    destruct a as [[] ?|?]; try done; cbn -[value_polymorphic] in *; rewrite ?Hv'; try done; by destruct c.
  - apply rest_place in H as (a & r & -> & H); [|by left]. cbn -[in_place] in *. destruct a as [[] ?|?]; try done. cbn -[in_place] in *. destruct cvref; [done|].
    unfold has_A in *. cbn -[in_place] in *. destruct (default_A X); [|done]. cbn -[in_place] in *. destruct (derived X u && copyable X u); [|done]. by rewrite H.
  - apply rest_place in H as (a & r & -> & H); [|by right]. cbn -[in_place] in *. destruct a as [[] ?|?]; try done. cbn -[in_place] in *. destruct cvref; [done|].
    unfold has_A in *. cbn -[in_place] in *. destruct (default_A X); [|done]. cbn -[in_place] in *. destruct (derived X u && copyable X u); [|done]. by rewrite (in_place_list _ _ _ H).
Qed.

Lemma delegates_poly14_ok l k l' : k <> KValue -> intended_polymorphic14 X l = Some (k, false) -> delegates_poly14 k false l = Some l' -> intended_polymorphic14 X l' = Some (k, true).
Proof.
  intros Hk H%split_false D.
  assert (Hp : forall a r k', place_polymorphic14 X false a r = Some k' -> k' = KInPlace \/ k' = KList).
  { unfold place_polymorphic14. intros a r k' E. repeat case_match; try done; by eapply in_place_kind. }
  destruct k; cbn in D; try done; injection D as <-; try reflexivity.
  - apply rest_place in H as (a & r & -> & H); [|by left]. cbn -[in_place] in *. destruct a as [[] ?|?]; try done. cbn -[in_place] in *.
    unfold has_A in *. cbn -[in_place] in *. destruct (default_A X); [|done]. cbn -[in_place] in *. destruct (base_of X u && copyable X u); [|done]. by rewrite H.
  - apply rest_place in H as (a & r & -> & H); [|by right]. cbn -[in_place] in *. destruct a as [[] ?|?]; try done. cbn -[in_place] in *.
    unfold has_A in *. cbn -[in_place] in *. destruct (default_A X); [|done]. cbn -[in_place] in *. destruct (base_of X u && copyable X u); [|done]. by rewrite (in_place_list _ _ _ H).
Qed.
(** The value constructors of polymorphic_cxx14.h: in place, with the type of the argument. *)
Lemma delegates_poly14_value b c l : b <> BSelf -> (forall i, b <> BList i) -> base_of X b = true -> copyable X b = true -> constructible X b [Ex b c] = true ->
  l = Ex BArg R :: Ex BAlloc R :: type_of [Ex b c] \/ l = Ex BArg R :: Ex BAlloc CL :: type_of [Ex b c] ->
  intended_polymorphic14 X l = Some (KInPlace, true).
Proof. intros Hs Hl Hb Hc Hk [->| ->]; cbn; rewrite Hb, Hc; cbn; unfold in_place; cbn; rewrite Hk; destruct b; try done; by edestruct Hl. Qed.
End delegation.
