(** * What a correct log of allocator and value-type calls looks like.

    A checker over the log alone: it does not look at the store, at pointers or at
    wrapper objects.  Its state says which blocks are allocated (with which allocator,
    for what) and which of them hold a constructed object. *)

From stdpp Require Import base gmap list.
From Verif Require Import Lang.

Section logspec.
Context {E : Env}.
Notation A := (eA E).

(** Allocating allocator, what the block was allocated for, type of the object
    constructed in it (if any). *)
Notation lstate := (gmap loc (A * bty * option ty)).

Definition bty_obj (b : bty) : ty := match b with BObj t => t | BCb t => t end.

(** The source of a construction or assignment, if it is an owned object, is a constructed one. *)
Definition src_ok (x : arg E) (m : lstate) : bool :=
  match x with
  | ARef _ (RBlk l) => match m !! l with Some (_, _, Some _) => true | _ => false end
  | _ => true
  end.

Definition check1 (m : lstate) (e : event E) : option lstate :=
  match e with
  | EvAlloc a b l =>
      match m !! l with None => Some (<[l := (a, b, None)]> m) | Some _ => None end
  | EvAllocFail _ _ _ => Some m
  | EvDealloc a b l =>
      match m !! l with
      | Some (a', b', None) =>
          if bool_decide (b = b') && Nat.eqb (a_res E a) (a_res E a')
          then Some (delete l m) else None
      | _ => None
      end
  | EvCons a t l x =>
      match m !! l with
      | Some (a', b, None) =>
          if bool_decide (bty_obj b = t) && src_ok x m
          then Some (<[l := (a', b, Some t)]> m) else None
      | _ => None
      end
  | EvConsFail a t l x _ =>
      match m !! l with
      | Some (_, b, None) => if bool_decide (bty_obj b = t) && src_ok x m then Some m else None
      | _ => None
      end
  | EvDestroy a t l =>
      match m !! l with
      | Some (a', b, Some t') => if bool_decide (t = t') then Some (<[l := (a', b, None)]> m) else None
      | _ => None
      end
  | EvAsgn t l x | EvAsgnFail t l x _ =>
      match m !! l with
      | Some (_, _, Some t') => if bool_decide (t = t') && src_ok x m then Some m else None
      | _ => None
      end
  end.

(** The log is kept newest first. *)
Fixpoint check (tr : list (event E)) : option lstate :=
  match tr with
  | [] => Some ∅
  | e :: tr' => match check tr' with Some m => check1 m e | None => None end
  end.

(** ** Consequences, in plain terms *)

Definition is_alloc (l : loc) (e : event E) : bool :=
  match e with EvAlloc _ _ l' => Nat.eqb l l' | _ => false end.
Definition is_dealloc (l : loc) (e : event E) : bool :=
  match e with EvDealloc _ _ l' => Nat.eqb l l' | _ => false end.
Definition is_cons (l : loc) (e : event E) : bool :=
  match e with EvCons _ _ l' _ => Nat.eqb l l' | _ => false end.
Definition is_destroy (l : loc) (e : event E) : bool :=
  match e with EvDestroy _ _ l' => Nat.eqb l l' | _ => false end.

Definition count (p : event E -> bool) (tr : list (event E)) : nat :=
  length (List.filter p tr).

Lemma count_cons p e tr : count p (e :: tr) = (if p e then 1 else 0) + count p tr.
Proof. unfold count. simpl. by destruct (p e). Qed.
Lemma count_app p tr1 tr2 : count p (tr1 ++ tr2) = count p tr1 + count p tr2.
Proof. induction tr1 as [|e tr IH]; [done|]. simpl. rewrite !count_cons, IH. lia. Qed.

Lemma check_suffix tr1 tr2 : is_Some (check (tr1 ++ tr2)) -> is_Some (check tr2).
Proof.
  induction tr1 as [|e tr IH]; simpl; [done|]. intros [m H]. apply IH.
  destruct (check (tr ++ tr2)); [eauto|done].
Qed.

Ltac chk :=
  repeat match goal with
  | H : match ?x with _ => _ end = Some _ |- _ =>
      lazymatch x with
      | _ !! _ => destruct x as [[[??] [?|]]|] eqn:?
      | _ => destruct x eqn:?
      end; simplify_eq
  end.

(** Allocations and deallocations of each address alternate, and so do
    constructions and destructions; the checker's state is the balance. *)
Theorem check_balance tr m l :
  check tr = Some m ->
  count (is_alloc l) tr = count (is_dealloc l) tr + (if m !! l then 1 else 0) /\
  count (is_cons l) tr = count (is_destroy l) tr +
    match m !! l with Some (_, _, Some _) => 1 | _ => 0 end.
Proof.
  revert m. induction tr as [|e tr IH]; simpl; intros m Hm.
  { simplify_eq. by rewrite lookup_empty. }
  destruct (check tr) as [m0|]; [|done]. destruct (IH m0 eq_refl) as [IH1 IH2].
  rewrite !count_cons.
  destruct e as [a1 b1 l1|a1 b1 e1|a1 b1 l1|a1 t1 l1 x1|a1 t1 l1 x1 e1|a1 t1 l1|t1 l1 x1|t1 l1 x1 e1];
    simpl in Hm |- *; simplify_eq; chk; try (split; lia).
  all: destruct (Nat.eqb_spec l l1) as [->|];
    rewrite ?lookup_insert, ?lookup_delete, ?lookup_insert_ne, ?lookup_delete_ne by done;
    repeat match goal with H : ?m' !! ?l' = _ |- _ => rewrite ?H in IH1, IH2; rewrite ?H; clear H end;
    cbn iota in *; first [lia|done].
Qed.

(** A block the checker considers allocated has been allocated, and not been
    touched by another allocation or deallocation since. *)
Lemma check_allocated tr m l a b o :
  check tr = Some m -> m !! l = Some (a, b, o) ->
  exists mid tr0, tr = mid ++ EvAlloc a b l :: tr0 /\
    count (is_alloc l) mid = 0 /\ count (is_dealloc l) mid = 0 /\
    count (is_cons l) mid = count (is_destroy l) mid + match o with Some _ => 1 | None => 0 end.
Proof.
  revert o m.
  induction tr as [|e tr IH]; simpl; intros o m Hm Hl.
  { simplify_eq. }
  destruct (check tr) as [m0|]; [|done].
  assert (Hstep : forall o0, m0 !! l = Some (a, b, o0) ->
     is_alloc l e = false -> is_dealloc l e = false ->
     (if is_cons l e then 1 else 0) + match o0 with Some _ => 1 | None => 0 end =
     (if is_destroy l e then 1 else 0) + match o with Some _ => 1 | None => 0 end ->
     exists mid tr0, e :: tr = mid ++ EvAlloc a b l :: tr0 /\
      count (is_alloc l) mid = 0 /\ count (is_dealloc l) mid = 0 /\
      count (is_cons l) mid = count (is_destroy l) mid + match o with Some _ => 1 | None => 0 end).
  { intros o0 Hl0 He1 He2 He3.
    destruct (IH o0 m0 eq_refl Hl0) as (mid & tr0 & -> & ? & ? & ?).
    exists (e :: mid), tr0. split; [done|]. rewrite !count_cons, He1, He2.
    repeat split; [done|done|].
    destruct (is_cons l e), (is_destroy l e), o, o0; lia. }
  destruct e as [a1 b1 l1|a1 b1 e1|a1 b1 l1|a1 t1 l1 x1|a1 t1 l1 x1 e1|a1 t1 l1|t1 l1 x1|t1 l1 x1 e1];
    simpl in Hm, Hstep.
  - destruct (m0 !! l1) eqn:Hl1; simplify_eq. destruct (Nat.eqb_spec l l1) as [<-|Hne].
    + rewrite lookup_insert in Hl. simplify_eq. exists [], tr. done.
    + rewrite lookup_insert_ne in Hl by done. by eapply Hstep.
  - simplify_eq. by eapply Hstep.
  - chk. destruct (Nat.eqb_spec l l1) as [<-|Hne].
    + by rewrite lookup_delete in Hl.
    + rewrite lookup_delete_ne in Hl by done. by eapply Hstep.
  - chk. destruct (Nat.eqb_spec l l1) as [<-|Hne].
    + rewrite lookup_insert in Hl. simplify_eq. by eapply Hstep.
    + rewrite lookup_insert_ne in Hl by done. by eapply Hstep.
  - chk. by eapply Hstep.
  - chk. destruct (Nat.eqb_spec l l1) as [<-|Hne].
    + rewrite lookup_insert in Hl. simplify_eq. by eapply Hstep.
    + rewrite lookup_insert_ne in Hl by done. by eapply Hstep.
  - chk. by eapply Hstep.
  - chk. by eapply Hstep.
Qed.

(** Every deallocation is preceded by the allocation of the block, with the same type and
    an allocator of the same resource, with no other allocation or deallocation of
    that address in between, and with as many destructions as constructions in between. *)
Theorem check_dealloc tr2 a b l tr1 :
  is_Some (check (tr2 ++ EvDealloc a b l :: tr1)) ->
  exists mid a' tr0, tr1 = mid ++ EvAlloc a' b l :: tr0 /\ a_res E a = a_res E a' /\
    count (is_alloc l) mid = 0 /\ count (is_dealloc l) mid = 0 /\
    count (is_cons l) mid = count (is_destroy l) mid.
Proof.
  intros H. apply check_suffix in H as [m H]. simpl in H.
  destruct (check tr1) as [m1|] eqn:H1; [|done].
  destruct (m1 !! l) as [[[a' b'] [t|]]|] eqn:Hl; try done.
  destruct (bool_decide (b = b') && (a_res E a =? a_res E a')) eqn:Hb; [|done].
  apply andb_true_iff in Hb as [Hb Ha]. apply bool_decide_eq_true in Hb as <-.
  apply Nat.eqb_eq in Ha. clear H m.
  destruct (check_allocated _ _ _ _ _ _ H1 Hl) as (mid & tr0 & ? & ? & ? & ?).
  exists mid, a', tr0. repeat split; try done. lia.
Qed.

(** An object the checker considers constructed has been, and not been touched by a
    construction, destruction, allocation or deallocation since. *)
Lemma check_constructed tr m l a b t :
  check tr = Some m -> m !! l = Some (a, b, Some t) ->
  exists mid a' x tr0, tr = mid ++ EvCons a' t l x :: tr0 /\
    count (is_cons l) mid = 0 /\ count (is_destroy l) mid = 0 /\
    count (is_alloc l) mid = 0 /\ count (is_dealloc l) mid = 0.
Proof.
  revert m. induction tr as [|e tr IH]; simpl; intros m Hm Hl.
  { simplify_eq. }
  destruct (check tr) as [m0|]; [|done].
  assert (Hstep : m0 !! l = Some (a, b, Some t) ->
     is_cons l e = false -> is_destroy l e = false -> is_alloc l e = false -> is_dealloc l e = false ->
     exists mid a'' x tr0, e :: tr = mid ++ EvCons a'' t l x :: tr0 /\
      count (is_cons l) mid = 0 /\ count (is_destroy l) mid = 0 /\
      count (is_alloc l) mid = 0 /\ count (is_dealloc l) mid = 0).
  { intros Hl0 He1 He2 He3 He4.
    destruct (IH m0 eq_refl Hl0) as (mid & a'' & x & tr0 & -> & ? & ? & ? & ?).
    exists (e :: mid), a'', x, tr0. split; [done|].
    rewrite !count_cons, He1, He2, He3, He4. done. }
  destruct e as [a1 b1 l1|a1 b1 e1|a1 b1 l1|a1 t1 l1 x1|a1 t1 l1 x1 e1|a1 t1 l1|t1 l1 x1|t1 l1 x1 e1];
    simpl in Hm, Hstep.
  - destruct (m0 !! l1) eqn:Hl1; simplify_eq. destruct (Nat.eqb_spec l l1) as [<-|Hne].
    + rewrite lookup_insert in Hl. simplify_eq.
    + rewrite lookup_insert_ne in Hl by done. by eapply Hstep.
  - simplify_eq. by eapply Hstep.
  - chk. destruct (Nat.eqb_spec l l1) as [<-|Hne].
    + by rewrite lookup_delete in Hl.
    + rewrite lookup_delete_ne in Hl by done. by eapply Hstep.
  - chk. destruct (Nat.eqb_spec l l1) as [<-|Hne].
    + rewrite lookup_insert in Hl. simplify_eq. exists [], a1, x1, tr. done.
    + rewrite lookup_insert_ne in Hl by done. by eapply Hstep.
  - chk. by eapply Hstep.
  - chk. destruct (Nat.eqb_spec l l1) as [<-|Hne].
    + rewrite lookup_insert in Hl. simplify_eq.
    + rewrite lookup_insert_ne in Hl by done. by eapply Hstep.
  - chk. by eapply Hstep.
  - chk. by eapply Hstep.
Qed.

(** Every destruction is preceded by the construction of that object, of the same
    type, without another construction or destruction at that address, and without a
    deallocation of the block, in between. *)
Theorem check_destroy tr2 a t l tr1 :
  is_Some (check (tr2 ++ EvDestroy a t l :: tr1)) ->
  exists mid a' x tr0, tr1 = mid ++ EvCons a' t l x :: tr0 /\
    count (is_cons l) mid = 0 /\ count (is_destroy l) mid = 0 /\
    count (is_alloc l) mid = 0 /\ count (is_dealloc l) mid = 0.
Proof.
  intros H. apply check_suffix in H as [m H]. simpl in H.
  destruct (check tr1) as [m1|] eqn:H1; [|done].
  destruct (m1 !! l) as [[[a' b'] [t'|]]|] eqn:Hl; try done.
  case_bool_decide; simplify_eq.
  by eapply check_constructed.
Qed.

(** Every construction happens in an allocated, empty block of the right type; every assignment
    is to a constructed object of the right type. *)
Theorem check_cons tr2 a t l x tr1 :
  is_Some (check (tr2 ++ EvCons a t l x :: tr1)) ->
  exists mid a' b tr0, tr1 = mid ++ EvAlloc a' b l :: tr0 /\ bty_obj b = t /\
    count (is_dealloc l) mid = 0 /\ count (is_cons l) mid = count (is_destroy l) mid.
Proof.
  intros H. apply check_suffix in H as [m H]. simpl in H.
  destruct (check tr1) as [m1|] eqn:H1; [|done].
  destruct (m1 !! l) as [[[a' b'] [t'|]]|] eqn:Hl; try done.
  destruct (bool_decide (bty_obj b' = t) && src_ok x m1) eqn:Hb; [|done].
  apply andb_true_iff in Hb as [Hb _]. apply bool_decide_eq_true in Hb.
  destruct (check_allocated _ _ _ _ _ _ H1 Hl) as (mid & tr0 & ? & ? & ? & ?).
  exists mid, a', b', tr0. repeat split; try done. lia.
Qed.

Theorem check_asgn tr2 t l x tr1 :
  is_Some (check (tr2 ++ EvAsgn t l x :: tr1)) ->
  exists mid a' x' tr0, tr1 = mid ++ EvCons a' t l x' :: tr0 /\
    count (is_destroy l) mid = 0 /\ count (is_dealloc l) mid = 0.
Proof.
  intros H. apply check_suffix in H as [m H]. simpl in H.
  destruct (check tr1) as [m1|] eqn:H1; [|done].
  destruct (m1 !! l) as [[[a' b'] [t'|]]|] eqn:Hl; try done.
  destruct (bool_decide (t = t') && src_ok x m1) eqn:Hb; [|done].
  apply andb_true_iff in Hb as [Hb _]. apply bool_decide_eq_true in Hb as <-.
  destruct (check_constructed _ _ _ _ _ _ H1 Hl) as (mid & a'' & x' & tr0 & ? & ? & ? & ? & ?).
  by exists mid, a'', x', tr0.
Qed.

(** The source object of every construction and assignment is alive at that moment. *)
Definition ev_source (e : event E) : option (cat * loc) :=
  match e with
  | EvCons _ _ _ (ARef c (RBlk l)) | EvConsFail _ _ _ (ARef c (RBlk l)) _
  | EvAsgn _ _ (ARef c (RBlk l)) | EvAsgnFail _ _ (ARef c (RBlk l)) _ => Some (c, l)
  | _ => None
  end.

Theorem check_source tr2 e tr1 c l :
  is_Some (check (tr2 ++ e :: tr1)) -> ev_source e = Some (c, l) ->
  exists mid a t x tr0, tr1 = mid ++ EvCons a t l x :: tr0 /\
    count (is_destroy l) mid = 0 /\ count (is_dealloc l) mid = 0.
Proof.
  intros H He. apply check_suffix in H as [m H]. simpl in H.
  destruct (check tr1) as [m1|] eqn:H1; [|done].
  assert (Hok : exists x, src_ok x m1 = true /\ x = ARef c (RBlk l)).
  { destruct e as [| | |a1 t1 l1 [|c1 [|]]|a1 t1 l1 [|c1 [|]] e1| |t1 l1 [|c1 [|]]|t1 l1 [|c1 [|]] e1];
      simpl in He; simplify_eq; (eexists; split; [|done]); simpl in H;
      (destruct (m1 !! l1) as [[[a' b'] [t'|]]|] eqn:Hl; try done);
      (lazymatch type of H with (if ?b then _ else _) = _ => destruct b eqn:Hb end; [|done]);
      by apply andb_true_iff in Hb as [_ Hb]. }
  destruct Hok as (x & Hok & ->). simpl in Hok.
  destruct (m1 !! l) as [[[a' b'] [t'|]]|] eqn:Hl; try done.
  destruct (check_constructed _ _ _ _ _ _ H1 Hl) as (mid & a'' & x' & tr0 & ? & ? & ? & ? & ?).
  by exists mid, a'', t', x', tr0.
Qed.

End logspec.
