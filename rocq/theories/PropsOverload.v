(** * Which constructor and which assignment operator a call selects: the theorems.

    [select] is C++ overload resolution over the declarations of a header; [what] is its outcome:
    [Nothing] (no viable function), [Clash] (ambiguous) or [Chosen] (the kind of function, and whether it is
    allocator-extended).  [intended_...] is read off DRAFT.md; [meant] is never [Clash]. *)

From stdpp Require Import base list.
From Verif Require Import Overload OverloadSpec OverloadProps OverloadInd OverloadPoly.

(** ** Traits for the examples.  T is the class 0.  It can be made and assigned from a 1, made in place from
    two 2s and from a list of 3s, and from a braced list of 4s.  The class 5 is derived from T. *)
Definition exX : traits := {|
  tv := BType 0;
  constructible := fun b l =>
    match b, l with
    | BType 0, [] | BType 0, [Ex (BType 0) _] | BType 0, [Ex (BType 5) _] | BType 0, [Ex (BType 1) _]
    | BType 0, [Ex (BType 2) _; Ex (BType 2) _] | BType 0, [Ex (BList (BType 3)) _] => true
    | BType 5, [Ex (BType 5) _] | BType 5, [Ex (BList (BType 3)) _] | BType 5, [Ex (BType 2) _] => true
    | _, _ => false
    end;
  assignable := fun a => match a with Ex (BType 1) _ | Ex (BType 0) _ => true | _ => false end;
  copyable := fun b => match b with BType 0 | BType 5 => true | _ => false end;
  derived := fun b => match b with BType 0 | BType 5 => true | _ => false end;
  base_of := fun b => match b with BType 0 | BType 5 => true | _ => false end;
  default_A := true;
  to_A := fun b c => bool_decide (b = BType 9);
  to_self := fun b c => bool_decide (b = BType 7);
  list_T := fun i => bool_decide (i = BType 4) |}.
Example C44_ex_sane : sane exX.
Proof. by split. Qed.
Example C44_ex_own b c : copyable exX b = true -> constructible exX b [Ex b c] = true.
Proof. by destruct b as [| | | | | | |[|[|[|[|[|[]]]]]]]. Qed.

(** T like [std::any]: constructible and assignable from everything, including the wrapper. *)
Definition anyX : traits := {|
  tv := BType 0; constructible := fun _ _ => true; assignable := fun _ => true; copyable := fun _ => true;
  derived := fun b => bool_decide (b = BType 0); base_of := fun b => bool_decide (b = BType 0); default_A := true;
  to_A := fun _ _ => false; to_self := fun _ _ => false; list_T := fun _ => true |}.
Example C44_ex_any_sane : sane anyX.
Proof. by split. Qed.

(** ** Copies and moves are never hijacked

    In all four headers, whatever T, its constructors and the allocator are: constructing from an rvalue of
    the same type moves, from any other expression of the same type copies; also with an allocator. *)
Definition headers (X : traits) : list (list fn) := [ctors_ind20 X; ctors_ind14 X; ctors_poly20 X; ctors_poly14 X].
Theorem C44_copy_move X c : tv X <> BSelf ->
  Forall (fun fs => what (select X fs [Ex BSelf c]) = Chosen (by_category c) false) (headers X) /\
  forall c' a, accepts_A X a = true ->
    Forall (fun fs => what (select X fs [Ex BArg c'; a; Ex BSelf c]) = Chosen (by_category c) true) (headers X).
Proof.
  intros HT. split; [|intros c' a Ha]; unfold headers; repeat constructor.
  all: destruct c; unf; cbn -[pick what conv better]; rewrite ?conv_alloc, ?convs_pack_expr, ?Ha; ev; tidy; ev;
    repeat (split1; ev; tidy; ev); cbn; fin.
Qed.
Example C44_ex_copy_move : Forall (fun fs => what (select anyX fs [Ex BSelf L]) = Chosen KCopy false) (headers anyX).
Proof. repeat constructor. Qed.

(** ** Every call: [indirect]

    indirect.h, for every T and every list of arguments except one shape: the constructor the draft means, or no constructor
    where it means none; never an ambiguity.  The shape is the next theorem's. *)
Theorem C44_indirect X l : sane X -> (forall c a c' i, l <> [Ex BArg c; a; Ex BTag c'; Br i]) ->
  what (select X (ctors_ind20 X) l) = meant (intended_indirect X l).
Proof. intros HS. by apply ind20_all. Qed.

(** [indirect(allocator_arg, a, in_place, {x, y})]: indirect.h (159-166) has a constructor with one
    defaulted argument that the draft lacks; without an allocator the same call is ill-formed. *)
Theorem C44_indirect_braces_refuted : exists X l, sane X /\
  what (select X (ctors_ind20 X) l) = Chosen KInPlace true /\ meant (intended_indirect X l) = Nothing /\
  what (select X (ctors_ind20 X) (drop 2 l)) = Nothing.
Proof. exists exX, [Ex BArg CL; Ex BAlloc L; Ex BTag CL; Br (BType 4)]. split; [by split|]. done. Qed.

(** Examples: value, braces, in place, list, derived class, conversion function, nothing. *)
Example C44_ex_indirect :
  map (fun l => what (select exX (ctors_ind20 exX) l))
    [[Ex (BType 1) R]; [Br (BType 4)]; [Ex BTag CL; Ex (BType 2) L; Ex (BType 2) R]; [Ex BTag CL; Br (BType 3)];
     [Ex BTag CL; Ex (BList (BType 3)) L]; [Ex (BDer 0) R]; [Ex (BDer 0) CL]; [Ex (BType 7) L]; [Ex (BType 8) L]; []] =
    [Chosen KValue false; Chosen KValue false; Chosen KInPlace false; Chosen KList false;
     Chosen KList false; Chosen KMove false; Chosen KCopy false; Chosen KMove false; Nothing; Chosen KDefault false].
Proof. by vm_compute. Qed.
Example C44_ex_indirect_alloc :
  map (fun l => what (select exX (ctors_ind20 exX) (Ex BArg CL :: Ex (BType 9) L :: l)))
    [[Ex (BType 1) R]; [Br (BType 4)]; [Ex BTag CL; Ex (BType 2) L; Ex (BType 2) R]; [Ex BTag CL; Br (BType 3)]; [Ex BSelf CR]; []] =
    [Chosen KValue true; Chosen KValue true; Chosen KInPlace true; Chosen KList true; Chosen KCopy true; Chosen KDefault true].
Proof. by vm_compute. Qed.

(** indirect_cxx14.h: all argument lists, with the narrower rules of that header. *)
Theorem C44_indirect14 X l : sane X -> what (select X (ctors_ind14 X) l) = meant (intended_indirect14 X l).
Proof. intros HS. by apply ind14_all. Qed.

(** The two headers differ on calls the draft gives a meaning: a value that is not a T. *)
Theorem C44_indirect14_values_refuted : exists X l, sane X /\
  what (select X (ctors_ind20 X) l) = Chosen KValue false /\ what (select X (ctors_ind14 X) l) = Nothing.
Proof. exists exX, [Ex (BType 1) R]. split; [by split|]. done. Qed.

(** ** Every call: [polymorphic]

    [own]: [std::copy_constructible] includes construction from every category of the type;
    [lists]: no type tells an lvalue initializer list from an rvalue one; [tags]: T is not an [in_place_type_t]. *)
Theorem C44_polymorphic X l : sane X ->
  (forall b c, copyable X b = true -> constructible X b [Ex b c] = true) ->
  (forall u i r, constructible X u (Ex (BList i) R :: r) = constructible X u (Ex (BList i) L :: r)) ->
  (forall q u, derived X (BTagT q u) = false) ->
  what (select X (ctors_poly20 X) l) = meant (intended_polymorphic X l).
Proof. intros HS Ho Hl Ht. by apply poly20_all. Qed.
Example C44_ex_lists u i r : constructible exX u (Ex (BList i) R :: r) = constructible exX u (Ex (BList i) L :: r).
Proof. by destruct u as [| | | | | | |[|[|[|[|[|[]]]]]]], r. Qed.
Example C44_ex_tags q u : derived exX (BTagT q u) = false.
Proof. done. Qed.
Example C44_ex_polymorphic :
  map (fun l => what (select exX (ctors_poly20 exX) l))
    [[Ex (BType 5) R]; [Ex (BType 1) R]; [Ex (BTagT false (BType 5)) CL; Ex (BType 2) L]; [Ex (BTagT true (BType 5)) CL; Ex (BType 2) L];
     [Ex (BTagT false (BType 5)) CL; Br (BType 3)]; [Ex (BDer 0) R]; [Ex BSelf CL]; []] =
    [Chosen KValue false; Nothing; Chosen KInPlace false; Nothing; Chosen KList false; Chosen KMove false; Chosen KCopy false; Chosen KDefault false].
Proof. by vm_compute. Qed.

(** Without [lists]: polymorphic.h (179-187) asks for construction from an rvalue list and then passes an
    lvalue, as the draft does: a type that takes only lvalue lists is refused. *)
Definition lvX : traits := {|
  tv := BType 0; constructible := fun b l => match l with [Ex (BList _) L] | [Ex (BType 0) _] => true | _ => false end; assignable := fun _ => false;
  copyable := fun b => bool_decide (b = BType 0); derived := fun b => bool_decide (b = BType 0); base_of := fun b => bool_decide (b = BType 0);
  default_A := true; to_A := fun _ _ => false; to_self := fun _ _ => false; list_T := fun _ => false |}.
Theorem C44_polymorphic_lists_refuted : exists X l, sane X /\ (forall q u, derived X (BTagT q u) = false) /\
  what (select X (ctors_poly20 X) l) = Nothing /\ meant (intended_polymorphic X l) = Chosen KList false.
Proof. exists lvX, [Ex (BTagT false (BType 0)) CL; Br (BType 3)]. split; [by split|]. done. Qed.
(** Without [tags]: the draft excludes [in_place_type_t] as a value; polymorphic.h (162-168) does not. *)
Definition tagX : traits := {|
  tv := BTagT false (BType 1); constructible := fun b l => true; assignable := fun _ => false; copyable := fun b => true;
  derived := fun b => bool_decide (b = BTagT false (BType 1)); base_of := fun b => bool_decide (b = BTagT false (BType 1));
  default_A := true; to_A := fun _ _ => false; to_self := fun _ _ => false; list_T := fun _ => false |}.
Theorem C44_polymorphic_tags_refuted : exists X l, sane X /\
  what (select X (ctors_poly20 X) l) = Chosen KValue false /\ meant (intended_polymorphic X l) = Nothing.
Proof. exists tagX, [Ex (BTagT false (BType 1)) CL]. split; [by split|]. done. Qed.

(** polymorphic_cxx14.h: all argument lists, with the rules of that header. *)
Theorem C44_polymorphic14 X l : sane X -> what (select X (ctors_poly14 X) l) = meant (intended_polymorphic14 X l).
Proof. intros HS. by apply poly14_all. Qed.

(** ** Assignment *)
Theorem C44_assign X a :
  what (select X (assigns_ind20 X) [a]) = meant1 (intended_assign X a) /\
  what (select X assigns_poly [a]) = meant1 (intended_assign_poly X a).
Proof. split; [apply assign_ind20|apply assign_poly]. Qed.
(** In particular copy and move assignment are never hijacked, whatever T is. *)
Theorem C44_assign_self X c :
  what (select X (assigns_ind20 X) [Ex BSelf c]) = Chosen (by_category c) false /\
  what (select X assigns_poly [Ex BSelf c]) = Chosen (by_category c) false.
Proof. destruct (C44_assign X (Ex BSelf c)) as [-> ->]. done. Qed.
Example C44_ex_assign :
  map (fun a => what (select exX (assigns_ind20 exX) [a])) [Ex (BType 1) R; Ex (BType 2) R; Ex BSelf L; Ex BSelf R; Ex (BDer 0) R; Ex (BType 7) L] =
    [Chosen KValue false; Nothing; Chosen KCopy false; Chosen KMove false; Chosen KMove false; Chosen KMove false].
Proof. by vm_compute. Qed.

(** indirect_cxx14.h (303-308) excludes the class itself by [std::remove_cv_t<U>], which leaves the reference
    of a deduced lvalue: exactly for a non-const lvalue of the same type, if T can be constructed and
    assigned from it, [x = y] is the assignment of a value and not a copy. *)
Theorem C44_assign14 X a :
  what (select X (assigns_ind14 X) [a]) =
    if bool_decide (a = Ex BSelf L) && constructible X (tv X) [a] && assignable X a then Chosen KValue false else meant1 (intended_assign X a).
Proof. apply assign_ind14. Qed.
Theorem C44_assign14_refuted : exists X, sane X /\
  what (select X (assigns_ind14 X) [Ex BSelf L]) = Chosen KValue false /\ what (select X (assigns_ind20 X) [Ex BSelf L]) = Chosen KCopy false.
Proof. exists anyX. split; [by split|]. done. Qed.

(** ** Nothing converts to a wrapper implicitly

    [x = a] for an [a] that is neither a wrapper nor converts to one by its own conversion function. *)
Theorem C44_implicit X b c : b <> BSelf -> (forall n, b <> BDer n) -> to_self X b c = false ->
  Forall (fun fs => what (select X (implicit fs) [Ex b c]) = Nothing) (headers X).
Proof.
  intros H1 H2 H3. unfold headers, implicit. repeat constructor; unf; cbn -[pick what better]; destruct b; cbn -[pick what better]; rewrite ?H3; try done; by edestruct H2.
Qed.
(** A wrapper does: [indirect y = x;], passing and returning by value copy or move, in every header; also
    with braces. *)
Theorem C44_implicit_copy X c : tv X <> BSelf ->
  Forall (fun fs => what (select X (implicit fs) [Ex BSelf c]) = Chosen (by_category c) false /\
                    copy_list (select X fs [Ex BSelf c]) = Chosen (by_category c) false) (headers X).
Proof.
  intros HT. unfold headers, implicit, copy_list. repeat constructor.
  all: destruct c; unf; cbn -[pick what conv better]; rewrite ?convs_pack_expr; ev; tidy; ev;
    repeat (split1; ev; tidy; ev); cbn; fin.
Qed.
(** In C++20 headers [x = { l }] can only copy or move. *)
Theorem C44_braces X fs l k al : In fs [ctors_ind20 X; ctors_poly20 X] ->
  copy_list (select X fs l) = Chosen k al -> k = KCopy \/ k = KMove.
Proof.
  intros Hf. unfold copy_list. destruct (select X fs l) as [| |f] eqn:E; try done. apply select_member in E.
  destruct Hf as [<-|[<-|[]]]; cbn in E; intuition (subst; cbn in *; naive_solver).
Qed.
(** The C++14 headers leave more constructors not explicit: exactly these kinds can be selected. *)
Theorem C44_braces14 X l k al :
  (copy_list (select X (ctors_ind14 X) l) = Chosen k al ->
     k = KCopy \/ k = KMove \/ k = KDefault \/ k = KList \/ k = KInPlace /\ al = true) /\
  (copy_list (select X (ctors_poly14 X) l) = Chosen k al ->
     k = KCopy \/ k = KMove \/ k = KDefault \/ (k = KList \/ k = KInPlace) /\ al = true).
Proof.
  split; unfold copy_list.
  - destruct (select X (ctors_ind14 X) l) as [| |f] eqn:E; try done. apply select_member in E. cbn in E. intuition (subst; cbn in *; naive_solver).
  - destruct (select X (ctors_poly14 X) l) as [| |f] eqn:E; try done. apply select_member in E. cbn in E. intuition (subst; cbn in *; naive_solver).
Qed.
Theorem C44_braces14_refuted :
  map (fun l => (copy_list (select exX (ctors_ind14 exX) l), copy_list (select exX (ctors_ind20 exX) l)))
    [[]; [Ex BArg CL; Ex BAlloc L]; [Ex BTag CL; Br (BType 3)]; [Ex BArg CL; Ex BAlloc L; Ex BTag CL; Ex (BType 1) L]] =
    [(Chosen KDefault false, Nothing); (Chosen KDefault true, Nothing); (Chosen KList false, Nothing); (Chosen KInPlace true, Nothing)] /\
  map (fun l => (copy_list (select exX (ctors_poly14 exX) l), copy_list (select exX (ctors_poly20 exX) l)))
    [[]; [Ex BArg CL; Ex BAlloc L]; [Ex BArg CL; Ex BAlloc L; Ex (BTagT false (BType 5)) R; Ex (BType 2) L]] =
    [(Chosen KDefault false, Nothing); (Chosen KDefault true, Nothing); (Chosen KInPlace true, Nothing)].
Proof. by vm_compute. Qed.
Example C44_ex_braces : copy_list (select exX (ctors_ind20 exX) [Ex BSelf R]) = Chosen KMove false.
Proof. by vm_compute. Qed.

(** ** Delegating constructors

    A constructor that delegates, called with the arguments it is selected for, delegates to the
    allocator-extended constructor of its own kind. *)
Theorem C44_delegate X l k l' : sane X ->
  (what (select X (ctors_ind20 X) l) = Chosen k false -> (forall c a c' i, l <> [Ex BArg c; a; Ex BTag c'; Br i]) ->
     delegates_ind20 k false l = Some l' -> what (select X (ctors_ind20 X) l') = Chosen k true) /\
  (what (select X (ctors_ind14 X) l) = Chosen k false -> delegates_ind14 k false l = Some l' ->
     what (select X (ctors_ind14 X) l') = Chosen k true) /\
  (what (select X (ctors_poly14 X) l) = Chosen k false -> k <> KValue -> delegates_poly14 k false l = Some l' ->
     what (select X (ctors_poly14 X) l') = Chosen k true).
Proof.
  intros HS. split_and!.
  - intros H Hb D. rewrite ind20_all in H by done. destruct (intended_indirect X l) as [[k' al]|] eqn:E; [|done]. injection H as -> ->.
    pose proof (delegates_ind20_ok X l k l' E D) as E'. rewrite ind20_all; [by rewrite E'|done|].
    intros c a c' i ->. destruct k; cbn in D; naive_solver.
  - intros H D. rewrite ind14_all in H by done. destruct (intended_indirect14 X l) as [[k' al]|] eqn:E; [|done]. injection H as -> ->.
    rewrite ind14_all by done. by rewrite (delegates_ind14_ok X l k l' E D).
  - intros H Hk D. rewrite poly14_all in H by done. destruct (intended_polymorphic14 X l) as [[k' al]|] eqn:E; [|done]. injection H as -> ->.
    rewrite poly14_all by done. by rewrite (delegates_poly14_ok X l k l' Hk E D).
Qed.
Theorem C44_delegate_polymorphic X l k l' : sane X ->
  (forall b c, copyable X b = true -> constructible X b [Ex b c] = true) ->
  (forall u i r, constructible X u (Ex (BList i) R :: r) = constructible X u (Ex (BList i) L :: r)) ->
  (forall q u, derived X (BTagT q u) = false) ->
  what (select X (ctors_poly20 X) l) = Chosen k false -> delegates_poly20 k false l = Some l' ->
  what (select X (ctors_poly20 X) l') = Chosen k true.
Proof.
  intros HS Ho Hl Ht H D. rewrite poly20_all in H by done. destruct (intended_polymorphic X l) as [[k' al]|] eqn:E; [|done]. injection H as -> ->.
  rewrite poly20_all by done. by rewrite (delegates_poly20_ok X l k l' E D).
Qed.
(** What arrives: the owned object is constructed from the same expressions (constness and value category
    included), as an object of the same type, as if the constructor had not delegated. *)
Theorem C44_forward k l l' :
  (delegates_ind20 k false l = Some l' \/ delegates_ind14 k false l = Some l' ->
     payload k true l' = payload k false l) /\
  (delegates_poly20 k false l = Some l' \/ k <> KValue /\ delegates_poly14 k false l = Some l' ->
     payload k true l' = payload k false l /\ (k = KInPlace \/ k = KList -> tag_type true l' = tag_type false l)).
Proof.
  assert (Hr : forall r, list_by_name (relist r) = list_by_name r) by (intros [|[[] ?|?] ?]; done).
  split.
  - intros [D|D]; destruct k; cbn in D; try done; injection D as <-; try done. cbn. apply Hr.
  - intros [D|[Hk D]]; destruct k; cbn in D; try done; injection D as <-; (split; [|intros [|]; try done]);
      destruct l as [|[[] ?|?] r]; cbn; try done; apply Hr.
Qed.
Theorem C44_forward_polymorphic14 al l b c l' : (if (al : bool) then drop 2 l else l) = [Ex b c] ->
  delegates_poly14 KValue al l = Some l' -> payload KInPlace true l' = [Ex b c] /\ tag_type true l' = Some (false, b).
Proof.
  intros Hl D. destruct al; cbn in D; injection D as <-; [|by subst l].
  destruct l as [|? [|? r]]; cbn in *; try done. rewrite drop_0 in Hl. by subst r.
Qed.
(** The value constructors of polymorphic_cxx14.h construct in place an object of the type of the argument,
    if that type can be constructed from the argument. *)
Theorem C44_delegate_polymorphic14 X (al : bool) c a b c' l' : sane X -> b <> BSelf -> (forall i, b <> BList i) -> constructible X b [Ex b c'] = true ->
  let l : list arg := (if al then [Ex BArg c; a] else []) ++ [Ex b c'] in
  what (select X (ctors_poly14 X) l) = Chosen KValue al -> delegates_poly14 KValue al l = Some l' ->
  what (select X (ctors_poly14 X) l') = Chosen KInPlace true.
Proof.
  intros HS Hb Hl Hk l H D. rewrite poly14_all in * by done.
  assert (Hv : value_polymorphic14 X (Ex b c') = true).
  { assert (Hp : forall al a r, place_polymorphic14 X al a r <> Some KValue).
    { intros al' a' r E. unfold place_polymorphic14 in E. repeat case_match; try done. apply in_place_kind in E. naive_solver. }
    assert (Hr : forall al d, rest X d (value_polymorphic14 X) (place_polymorphic14 X al) [Ex b c'] = Some KValue -> value_polymorphic14 X (Ex b c') = true).
    { intros al' d E. apply rest_value in E as (a' & [= <-] & _ & _ & Hv); [done|apply Hp]. }
    destruct (intended_polymorphic14 X l) as [[k' al']|] eqn:E; [|done]. injection H as -> ->. subst l. destruct al.
    - cbn [app] in E. unfold intended_polymorphic14, OverloadSpec.split in E. destruct (accepts_A X a); [|done].
      unfold option_map in E. case_match eqn:Er; [|done]. injection E as ->. by eapply Hr.
    - apply split_false in E. by eapply Hr. }
  cbn in Hv. apply andb_true_iff in Hv as [B1 B2].
  rewrite (delegates_poly14_value X b c' l'); try done. destruct al; cbn in D; injection D as <-; [by right|by left].
Qed.
(** Without that condition it is selected and its own delegation is ill-formed, where C++20 has no such constructor. *)
Definition nomoveX : traits := {|
  tv := BType 0; constructible := fun b l => match l with [Ex (BType 0) CL] => true | _ => false end; assignable := fun _ => false;
  copyable := fun b => bool_decide (b = BType 0); derived := fun b => bool_decide (b = BType 0); base_of := fun b => bool_decide (b = BType 0);
  default_A := true; to_A := fun _ _ => false; to_self := fun _ _ => false; list_T := fun _ => false |}.
Theorem C44_delegate_polymorphic14_refuted : exists X l l', sane X /\
  what (select X (ctors_poly14 X) l) = Chosen KValue false /\ delegates_poly14 KValue false l = Some l' /\ what (select X (ctors_poly14 X) l') = Nothing.
Proof. exists nomoveX, [Ex (BType 0) R], [Ex BArg R; Ex BAlloc R; Ex (BTagT false (BType 0)) R; Ex (BType 0) R]. split; [by split|]. done. Qed.
Example C44_ex_delegate :
  map (fun l => delegates_ind14 KList false l) [[Ex BTag CL; Br (BType 3)]] = [Some [Ex BArg CL; Ex BAlloc R; Ex BTag R; Ex (BList (BType 3)) L]] /\
  what (select exX (ctors_ind14 exX) [Ex BTag CL; Br (BType 3)]) = Chosen KList false /\
  what (select exX (ctors_poly20 exX) [Ex (BType 5) L]) = Chosen KValue false /\
  what (select exX (ctors_poly14 exX) [Ex (BType 5) L]) = Chosen KValue false.
Proof. by vm_compute. Qed.
Print Assumptions C44_copy_move.
Print Assumptions C44_indirect.
Print Assumptions C44_indirect_braces_refuted.
Print Assumptions C44_indirect14.
Print Assumptions C44_indirect14_values_refuted.
Print Assumptions C44_polymorphic.
Print Assumptions C44_polymorphic_lists_refuted.
Print Assumptions C44_polymorphic_tags_refuted.
Print Assumptions C44_polymorphic14.
Print Assumptions C44_assign.
Print Assumptions C44_assign_self.
Print Assumptions C44_assign14.
Print Assumptions C44_assign14_refuted.
Print Assumptions C44_implicit.
Print Assumptions C44_implicit_copy.
Print Assumptions C44_braces.
Print Assumptions C44_braces14.
Print Assumptions C44_braces14_refuted.
Print Assumptions C44_delegate.
Print Assumptions C44_delegate_polymorphic.
Print Assumptions C44_forward.
Print Assumptions C44_forward_polymorphic14.
Print Assumptions C44_delegate_polymorphic14.
Print Assumptions C44_delegate_polymorphic14_refuted.
