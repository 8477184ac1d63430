(** * What the operations write, by inspection of their programs. *)

From stdpp Require Import base gmap list.
From Verif Require Import Lang Common Client Spec Rep Headers Hist Tree Conc.
From Verif Require Import Indirect20 Indirect14 Polymorphic20 Polymorphic14.

Section static.
Context {E : Env} (rob : gset loc) (own : wl -> Prop) (ownx : nat -> Prop).

Definition ref_ok (r : oref) : Prop := match r with RBlk l => l ∉ rob | RExt n => ownx n end.
Definition cons_arg_ok (x : arg E) : Prop := match x with ARef RVal r => ref_ok r | _ => True end.
Definition asgn_arg_ok (x : arg E) : Prop :=
  match x with ARef RVal r | ARef NonConstL r => ref_ok r | _ => True end.

(** The action writes neither a block in [rob] nor an object not owned, and stores no
    pointer to a block in [rob]. *)
Definition step_ok {R} (p : prim E R) : Prop :=
  match p with
  | PDealloc _ _ l | PDestroy _ _ l | PBeginDestroy _ _ l | PEndDestroy _ l | PCbInit _ l => l ∉ rob
  | PCons _ _ l x => l ∉ rob /\ cons_arg_ok x
  | PAsgn _ l x => l ∉ rob /\ asgn_arg_ok x
  | PWriteP w q => own w /\ forall l, q = Some l -> l ∉ rob
  | PNewW w q _ => own w /\ forall l, q = PLoc l -> l ∉ rob
  | PWriteA w _ | PDelW w => own w
  | PCbSetP l q => l ∉ rob /\ q ∉ rob
  | PMutObj r _ => ref_ok r
  | PExtSet n _ _ => ownx n
  | _ => True
  end.

Definition res_ok {R} (p : prim E R) : R -> Prop :=
  match p in prim _ R return R -> Prop with
  | PAlloc _ _ => fun r => forall l, r = inl l -> l ∉ rob
  | PReadP w => fun r => own w -> forall l, r = Some l -> l ∉ rob
  | PCbGetP l => fun q => l ∉ rob -> q ∉ rob
  | _ => fun _ => True
  end.

Fixpoint safe_w {X} (p : prog E X) (Q : X -> Prop) : Prop :=
  match p with
  | Ret x => Q x
  | Throw _ => True
  | Act a k => step_ok a /\ forall r, res_ok a r -> safe_w (k r) Q
  end.

Lemma safe_bind {X Y} (p : prog E X) (f : X -> prog E Y) Q1 Q :
  safe_w p Q1 -> (forall x, Q1 x -> safe_w (f x) Q) -> safe_w (bind p f) Q.
Proof.
  intros Hp Hf. induction p as [x|e|R a k IH]; simpl in *; [by apply Hf|done|].
  destruct Hp as [H1 H2]. split; [done|]. intros r Hr. apply IH. by apply H2.
Qed.

Lemma safe_catch {X} (p : prog E X) h Q :
  safe_w p Q -> (forall e, safe_w (h e) Q) -> safe_w (catch p h) Q.
Proof.
  intros Hp Hh. induction p as [x|e|R a k IH]; simpl in *; [done|apply Hh|].
  destruct Hp as [H1 H2]. split; [done|]. intros r Hr. apply IH. by apply H2.
Qed.

Lemma safe_noexcept {X} b (p : prog E X) Q : safe_w p Q -> safe_w (noexcept_if b p) Q.
Proof. intros Hp. destruct b; simpl; [|done]. apply safe_catch; [done|]. intros e. simpl. done. Qed.

Lemma safe_act {R} (a : prim E R) (Q : R -> Prop) :
  step_ok a -> (forall r, res_ok a r -> Q r) -> safe_w (act a) Q.
Proof. intros H1 H2. split; [done|]. simpl. auto. Qed.

Lemma safe_act_thr {R} (a : prim E (R + exn)) (Q : R -> Prop) :
  step_ok a -> (forall r, res_ok a (inl r) -> Q r) -> safe_w (act_thr a) Q.
Proof. intros H1 H2. split; [done|]. intros [r|e] Hr; simpl; auto. Qed.

Lemma safe_mono {X} (p : prog E X) (Q1 Q2 : X -> Prop) :
  safe_w p Q1 -> (forall x, Q1 x -> Q2 x) -> safe_w p Q2.
Proof.
  intros Hp HQ. induction p as [x|e|R a k IH]; simpl in *; [auto|done|].
  destruct Hp as [H1 H2]. split; [done|]. intros r Hr. apply IH. by apply H2.
Qed.

Lemma safe_attempt {X} (p : prog E X) Q :
  safe_w p Q -> safe_w (attempt p) (fun r => match r with inl x => Q x | inr _ => True end).
Proof.
  intros Hp. induction p as [x|e|R a k IH]; simpl in *; [done|done|].
  destruct Hp as [H1 H2]. split; [done|]. intros r Hr. apply IH. by apply H2.
Qed.

Notation okl := (fun l : loc => l ∉ rob).

Lemma safe_deref_p w : safe_w (deref_p (E := E) w) (fun l => own w -> l ∉ rob).
Proof.
  unfold deref_p. eapply safe_bind; [apply safe_act; [done|]; intros r Hr; exact Hr|].
  intros [l|] Hl; simpl; [|done]. intros Hw. by apply Hl.
Qed.

Lemma safe_valueless w : safe_w (Indirect20.valueless_after_move (E := E) w) (fun _ => True).
Proof. simpl. done. Qed.

Lemma safe_swap_p x y : own x -> own y -> safe_w (swap_p (E := E) x y) (fun _ => True).
Proof. intros Hx Hy. simpl in *. naive_solver. Qed.

Lemma safe_swap_a x y : own x -> own y -> safe_w (swap_a (E := E) x y) (fun _ => True).
Proof. intros Hx Hy. simpl in *. naive_solver. Qed.

Lemma safe_ctor w p a (body : prog E unit) :
  own w -> (forall l, p = PLoc l -> l ∉ rob) -> safe_w body (fun _ => True) ->
  safe_w (ctor w p a body) (fun _ => True).
Proof.
  intros Hw Hp Hb. unfold ctor. eapply safe_bind; [by apply safe_act; [|intros; exact I]|].
  intros _ _. apply safe_catch; [done|]. intros e. simpl. done.
Qed.

(** The special member functions of the value type write neither a block in [rob], other
    than the target and a source given as an rvalue, nor an object not owned. *)
Record tp_confined (T : TP E) : Prop := {
  tc_cons a t l x : l ∉ rob -> cons_arg_ok x -> safe_w (tp_cons T a t l x) (fun _ => True);
  tc_destroy a t l : l ∉ rob -> safe_w (tp_destroy T a t l) (fun _ => True);
  tc_asgn t l x : l ∉ rob -> asgn_arg_ok x -> safe_w (tp_asgn T t l x) (fun _ => True);
}.

Lemma flat_confined : tp_confined (flatTP E).
Proof. split; cbn [flatTP tp_cons tp_destroy tp_asgn]; intros; (apply safe_act_thr || apply safe_act); done. Qed.

Section ind.
Local Open Scope prog_scope.
Context (T : TP E) (HT : tp_confined T).

Lemma safe_construct_from a x :
  cons_arg_ok x -> safe_w (Indirect20.construct_from T a x) okl.
Proof.
  intros Hx. unfold Indirect20.construct_from.
  eapply safe_bind; [apply safe_act_thr; [done|intros l Hl; exact (Hl l eq_refl)]|].
  intros l Hl. simpl in Hl. apply safe_catch; [|by intros e; simpl].
  eapply safe_bind; [by apply (tc_cons _ HT)|]. by intros _ _.
Qed.

Lemma safe_reset_ind w : own w -> safe_w (Indirect20.reset T w) (fun _ => True).
Proof.
  intros Hw. unfold Indirect20.reset. apply safe_noexcept. eapply safe_bind; [apply safe_act; [done|intros r Hr; exact Hr]|].
  intros [l|] Hl; [|done]. specialize (Hl Hw l eq_refl).
  eapply safe_bind; [apply safe_act; [done|intros; exact I]|]. intros a _. unfold Indirect20.destroy_with.
  eapply safe_bind; [eapply safe_bind; [by apply (tc_destroy _ HT)|]; intros _ _; by apply (safe_act _ (fun _ => True))|].
  intros _ _. apply safe_act; [|done]. simpl. naive_solver.
Qed.

Lemma safe_ctor_from w a x : own w -> cons_arg_ok x -> safe_w (Indirect20.ctor_from T w a x) (fun _ => True).
Proof.
  intros Hw Hx. apply safe_ctor; [done|done|].
  eapply safe_bind; [apply safe_act; [done|intros; exact I]|]. intros a' _.
  eapply safe_bind; [by apply safe_construct_from|]. intros l Hl. apply safe_act; [|done].
  simpl. split; [done|]. intros l' [= <-]. done.
Qed.

Lemma safe_copy_ind w a y : own w -> safe_w (Indirect20.ctor_copy_a T w a y) (fun _ => True).
Proof.
  intros Hw. apply safe_ctor; [done|done|].
  eapply safe_bind; [apply safe_valueless|]. intros [] _; [by apply safe_act; [simpl; naive_solver|]|].
  eapply safe_bind; [apply safe_act; [done|intros; exact I]|]. intros a' _.
  eapply safe_bind; [apply safe_deref_p|]. intros o _.
  eapply safe_bind; [by apply safe_construct_from|]. intros l Hl. apply safe_act; [|done].
  simpl. split; [done|]. intros l' [= <-]. done.
Qed.

Lemma safe_move_ind w a y : own w -> own y -> safe_w (Indirect20.ctor_move_a T w a y) (fun _ => True).
Proof.
  intros Hw Hy. unfold Indirect20.ctor_move_a. apply safe_noexcept. apply safe_ctor; [done|done|].
  destruct (always_equal E); [by apply safe_swap_p|].
  eapply safe_bind; [apply safe_act; [done|intros; exact I]|]. intros a1 _.
  eapply safe_bind; [apply safe_act; [done|intros; exact I]|]. intros a2 _.
  destruct (a_eqb E a1 a2); [by apply safe_swap_p|].
  eapply safe_bind; [apply safe_valueless|]. intros [] _; cbn [negb]; [by apply safe_act; [simpl; naive_solver|]|].
  eapply safe_bind; [apply safe_act; [done|intros; exact I]|]. intros a' _.
  eapply safe_bind; [apply safe_deref_p|]. intros o Ho.
  eapply safe_bind; [apply safe_construct_from; simpl; auto|]. intros l Hl. apply safe_act; [|done].
  simpl. split; [done|]. intros l' [= <-]. done.
Qed.

Lemma safe_copy_assign_ind x y : own x -> safe_w (Indirect20.copy_assign T x y) (fun _ => True).
Proof.
  intros Hx. unfold Indirect20.copy_assign. destruct (decide (x = y)); [done|].
  eapply safe_bind; [apply safe_valueless|]. intros vo _.
  eapply (safe_bind _ _ (fun _ => True)).
  - destruct vo; [by apply safe_reset_ind|].
    eapply (safe_bind _ _ (fun _ => True)).
    { destruct (t_assignable E); [|done]. eapply safe_bind; [apply safe_valueless|]. intros [] _; simpl; done. }
    intros [] _.
    + eapply safe_bind; [apply safe_deref_p|]. intros l Hl.
      eapply safe_bind; [apply safe_deref_p|]. intros o _. simpl in Hl; apply (tc_asgn _ HT); simpl; auto.
    + eapply (safe_bind _ _ (fun _ => True)); [by destruct (pocca E)|]. intros a _.
      eapply safe_bind; [apply safe_deref_p|]. intros o _.
      eapply safe_bind; [by apply safe_construct_from|]. intros l Hl.
      eapply safe_bind; [by apply safe_reset_ind|]. intros _ _. apply safe_act; [|done].
      simpl. split; [done|]. intros l' [= <-]. done.
  - intros _ _. destruct (pocca E); [|done].
    eapply safe_bind; [apply safe_act; [done|intros; exact I]|]. intros a _. by apply safe_act.
Qed.

Lemma safe_move_assign_ind x y : own x -> own y -> safe_w (Indirect20.move_assign T x y) (fun _ => True).
Proof.
  intros Hx Hy. unfold Indirect20.move_assign. apply safe_noexcept. destruct (decide (x = y)); [done|].
  eapply safe_bind; [apply safe_valueless|]. intros vo _.
  eapply (safe_bind _ _ (fun _ => True)).
  - destruct vo; [by apply safe_reset_ind|].
    eapply safe_bind; [apply safe_act; [done|intros; exact I]|]. intros a1 _.
    eapply safe_bind; [apply safe_act; [done|intros; exact I]|]. intros a2 _.
    destruct (a_eqb E a1 a2).
    + eapply safe_bind; [by apply safe_swap_p|]. intros _ _. by apply safe_reset_ind.
    + eapply (safe_bind _ _ (fun _ => True)); [by destruct (pocma E)|]. intros a _.
      eapply safe_bind; [apply safe_deref_p|]. intros o Ho.
      eapply safe_bind; [apply safe_construct_from; simpl; auto|]. intros l Hl.
      eapply safe_bind; [by apply safe_reset_ind|]. intros _ _. apply safe_act; [|done].
      simpl. split; [done|]. intros l' [= <-]. done.
  - intros _ _. destruct (pocma E); [|done].
    eapply safe_bind; [apply safe_act; [done|intros; exact I]|]. intros a _. by apply safe_act.
Qed.

Lemma safe_value_assign_ind x g :
  own x -> cons_arg_ok g -> asgn_arg_ok g -> safe_w (Indirect20.value_assign T x g) (fun _ => True).
Proof.
  intros Hx H1 H2. unfold Indirect20.value_assign.
  eapply safe_bind; [apply safe_valueless|]. intros [] _.
  - eapply safe_bind; [apply safe_act; [done|intros; exact I]|]. intros a _.
    eapply safe_bind; [by apply safe_construct_from|]. intros l Hl. apply safe_act; [|done].
    simpl. split; [done|]. intros l' [= <-]. done.
  - eapply safe_bind; [apply safe_deref_p|]. intros l Hl. simpl in Hl; apply (tc_asgn _ HT); simpl; auto.
Qed.

Lemma safe_swap_ind x y : own x -> own y -> safe_w (Indirect20.swap (E := E) x y) (fun _ => True).
Proof.
  intros Hx Hy. unfold Indirect20.swap. apply safe_noexcept. destruct (pocs E).
  - eapply safe_bind; [by apply safe_swap_a|]. intros _ _. by apply safe_swap_p.
  - eapply safe_bind; [apply safe_act; [done|intros; exact I]|]. intros a1 _.
    eapply safe_bind; [apply safe_act; [done|intros; exact I]|]. intros a2 _.
    destruct (a_eqb E a1 a2); [by apply safe_swap_p|]. simpl. done.
Qed.

End ind.

Section poly.
Local Open Scope prog_scope.
Context (T : TP E) (HT : tp_confined T).

Lemma safe_cb a t l x : l ∉ rob -> cons_arg_ok x ->
  safe_w (catch (Polymorphic20.cb_ctor T a t l x ;; Ret l)
            (fun e => act (PDealloc a (BCb t) l) ;; Throw e)) okl.
Proof.
  intros Hl Hx. apply safe_catch; [|by intros e; simpl]. unfold Polymorphic20.cb_ctor.
  eapply (safe_bind _ _ (fun _ => True)); [|by intros _ _].
  eapply safe_bind; [apply (safe_act _ (fun _ => True)); done|]. intros _ _.
  eapply safe_bind; [by apply (tc_cons _ HT)|]. intros _ _. by apply safe_act.
Qed.

Lemma safe_create w t x : cons_arg_ok x -> safe_w (Polymorphic20.create_control_block T w t x) okl.
Proof.
  intros Hx. unfold Polymorphic20.create_control_block.
  eapply safe_bind; [apply safe_act; [done|intros; exact I]|]. intros a _.
  eapply safe_bind; [apply safe_act_thr; [done|intros l Hl; exact (Hl l eq_refl)]|].
  intros l Hl. by apply safe_cb.
Qed.

Lemma safe_clone cb a : safe_w (Polymorphic20.cb_clone T cb a) okl.
Proof.
  unfold Polymorphic20.cb_clone.
  eapply safe_bind; [apply safe_act; [done|intros; exact I]|]. intros t _.
  eapply safe_bind; [apply safe_act_thr; [done|intros l Hl; exact (Hl l eq_refl)]|].
  intros l Hl. by apply safe_cb.
Qed.

Lemma safe_cbmove cb a : cb ∉ rob -> safe_w (Polymorphic20.cb_move T cb a) okl.
Proof.
  intros Hcb. unfold Polymorphic20.cb_move.
  eapply safe_bind; [apply safe_act; [done|intros; exact I]|]. intros t _.
  eapply safe_bind; [apply safe_act_thr; [done|intros l Hl; exact (Hl l eq_refl)]|].
  intros l Hl. by apply safe_cb.
Qed.

Lemma safe_reset_poly w : own w -> safe_w (Polymorphic20.reset T w) (fun _ => True).
Proof.
  intros Hw. unfold Polymorphic20.reset. apply safe_noexcept. eapply safe_bind; [apply safe_act; [done|intros r Hr; exact Hr]|].
  intros [l|] Hl; [|done]. specialize (Hl Hw l eq_refl).
  eapply safe_bind; [apply safe_act; [done|intros; exact I]|]. intros a _. unfold Polymorphic20.cb_destroy.
  eapply safe_bind.
  { eapply safe_bind; [apply safe_act; [done|intros; exact I]|]. intros t _.
    eapply safe_bind; [by apply (tc_destroy _ HT)|]. intros _ _. by apply (safe_act _ (fun _ => True)). }
  intros _ _. apply safe_act; [|done]. simpl. naive_solver.
Qed.

Lemma safe_write_some w l : own w -> l ∉ rob -> safe_w (act (E := E) (PWriteP w (Some l))) (fun _ => True).
Proof. intros. apply safe_act; [|done]. simpl. split; [done|]. intros l' [= <-]. done. Qed.

Lemma safe_ctor_poly w a t x : own w -> cons_arg_ok x ->
  safe_w (Polymorphic20.ctor_inplace_a T w a t x) (fun _ => True).
Proof.
  intros Hw Hx. apply safe_ctor; [done|done|].
  eapply safe_bind; [by apply safe_create|]. intros l Hl. by apply safe_write_some.
Qed.

Lemma safe_copy_poly w a y : own w -> safe_w (Polymorphic20.ctor_copy_a T w a y) (fun _ => True).
Proof.
  intros Hw. apply safe_ctor; [done|done|].
  eapply safe_bind; [apply safe_valueless|]. intros [] _; cbn [negb]; [by apply safe_act; [simpl; naive_solver|]|].
  eapply safe_bind; [apply safe_deref_p|]. intros o _.
  eapply safe_bind; [apply safe_act; [done|intros; exact I]|]. intros a' _.
  eapply safe_bind; [by apply safe_clone|]. intros l Hl. by apply safe_write_some.
Qed.

Lemma safe_exchange w y : own w -> own y -> safe_w (Polymorphic20.exchange_null (E := E) w y) (fun _ => True).
Proof. intros Hx Hy. simpl in *. naive_solver. Qed.
Lemma safe_take w y : own w -> own y -> safe_w (Polymorphic14.take (E := E) w y) (fun _ => True).
Proof. intros Hx Hy. simpl in *. naive_solver. Qed.

Lemma safe_move_rest w y : own w -> own y ->
  safe_w (v <- Polymorphic20.valueless_after_move y ;
          if negb v then
            o <- deref_p y ;
            a' <- act (PReadA w) ;
            cb <- Polymorphic20.cb_move T o a' ;
            act (PWriteP w (Some cb))
          else act (PWriteP w None)) (fun _ => True).
Proof.
  intros Hw Hy.
  eapply safe_bind; [apply safe_valueless|]. intros [] _; cbn [negb]; [by apply safe_act; [simpl; naive_solver|]|].
  eapply safe_bind; [apply safe_deref_p|]. intros o Ho.
  eapply safe_bind; [apply safe_act; [done|intros; exact I]|]. intros a' _.
  eapply safe_bind; [apply safe_cbmove; auto|]. intros l Hl. by apply safe_write_some.
Qed.

Lemma safe_move_poly w a y : own w -> own y -> safe_w (Polymorphic20.ctor_move_a T w a y) (fun _ => True).
Proof.
  intros Hw Hy. unfold Polymorphic20.ctor_move_a. apply safe_noexcept. apply safe_ctor; [done|done|].
  destruct (always_equal E); [by apply safe_exchange|].
  eapply safe_bind; [apply safe_act; [done|intros; exact I]|]. intros a1 _.
  eapply safe_bind; [apply safe_act; [done|intros; exact I]|]. intros a2 _.
  destruct (a_eqb E a1 a2); [by apply safe_exchange|]. by apply safe_move_rest.
Qed.

Lemma safe_move_poly14 w a y : own w -> own y -> safe_w (Polymorphic14.ctor_move_a T w a y) (fun _ => True).
Proof.
  intros Hw Hy. unfold Polymorphic14.ctor_move_a. apply safe_noexcept. apply safe_ctor; [done|done|].
  destruct (pocca E); [by apply safe_take|].
  eapply safe_bind; [apply safe_act; [done|intros; exact I]|]. intros a1 _.
  eapply safe_bind; [apply safe_act; [done|intros; exact I]|]. intros a2 _.
  destruct (a_eqb E a1 a2); [by apply safe_take|]. by apply safe_move_rest.
Qed.

Lemma safe_copy_assign_poly x y : own x -> safe_w (Polymorphic20.copy_assign T x y) (fun _ => True).
Proof.
  intros Hx. unfold Polymorphic20.copy_assign. destruct (decide (x = y)); [done|].
  eapply safe_bind; [apply safe_valueless|]. intros vo _.
  eapply (safe_bind _ _ (fun _ => True)).
  - destruct vo; [by apply safe_reset_poly|].
    eapply safe_bind; [apply safe_deref_p|]. intros o _.
    eapply (safe_bind _ _ (fun _ => True)); [by destruct (pocca E)|]. intros a _.
    eapply safe_bind; [by apply safe_clone|]. intros l Hl.
    eapply safe_bind; [by apply safe_reset_poly|]. intros _ _. by apply safe_write_some.
  - intros _ _. destruct (pocca E); [|done].
    eapply safe_bind; [apply safe_act; [done|intros; exact I]|]. intros a _. by apply safe_act.
Qed.

Lemma safe_move_assign_poly x y : own x -> own y -> safe_w (Polymorphic20.move_assign T x y) (fun _ => True).
Proof.
  intros Hx Hy. unfold Polymorphic20.move_assign. apply safe_noexcept. destruct (decide (x = y)); [done|].
  eapply safe_bind; [apply safe_valueless|]. intros vo _.
  eapply (safe_bind _ _ (fun _ => True)).
  - destruct vo; [by apply safe_reset_poly|].
    eapply safe_bind; [apply safe_act; [done|intros; exact I]|]. intros a1 _.
    eapply safe_bind; [apply safe_act; [done|intros; exact I]|]. intros a2 _.
    destruct (a_eqb E a1 a2).
    + eapply safe_bind; [by apply safe_swap_p|]. intros _ _. by apply safe_reset_poly.
    + eapply safe_bind; [apply safe_deref_p|]. intros o Ho.
      eapply (safe_bind _ _ (fun _ => True)); [by destruct (pocma E)|]. intros a _.
      eapply safe_bind; [apply safe_cbmove; auto|]. intros l Hl.
      eapply safe_bind; [by apply safe_reset_poly|]. intros _ _. by apply safe_write_some.
  - intros _ _. destruct (pocma E); [|done].
    eapply safe_bind; [apply safe_act; [done|intros; exact I]|]. intros a _. by apply safe_act.
Qed.

Lemma safe_star_poly w : safe_w (Polymorphic20.op_star (E := E) w) (fun l => own w -> l ∉ rob).
Proof.
  unfold Polymorphic20.op_star. eapply safe_bind; [apply safe_deref_p|]. intros l Hl.
  apply safe_act; [done|]. simpl. auto.
Qed.

End poly.

(** ** All operations of all headers *)

Section hdr.
Context (T : TP E) (HT : tp_confined T) (h : header).
Notation I := (hdr_impl h T).

Lemma safe_h_make w a t x : own w -> cons_arg_ok x -> safe_w (i_inplace_a I w a t x) (fun _ => True).
Proof. intros. destruct h; [by apply safe_ctor_from|by apply safe_ctor_from|by apply safe_ctor_poly|by apply safe_ctor_poly]. Qed.
Lemma safe_h_copy_a w a y : own w -> safe_w (i_copy_a I w a y) (fun _ => True).
Proof. intros. destruct h; [by apply safe_copy_ind|by apply safe_copy_ind|by apply safe_copy_poly|by apply safe_copy_poly]. Qed.
Lemma safe_h_copy w y : own w -> safe_w (i_copy I w y) (fun _ => True).
Proof.
  intros. destruct h; (eapply safe_bind; [apply safe_act; [done|intros; exact Logic.I]|]; intros a _);
    [by apply safe_copy_ind|by apply safe_copy_ind|by apply safe_copy_poly|by apply safe_copy_poly].
Qed.
Lemma safe_h_move_a w a y : own w -> own y -> safe_w (i_move_a I w a y) (fun _ => True).
Proof. intros. destruct h; [by apply safe_move_ind|by apply safe_move_ind|by apply safe_move_poly|by apply safe_move_poly14]. Qed.
Lemma safe_h_move w y : own w -> own y -> safe_w (i_move I w y) (fun _ => True).
Proof.
  intros. destruct h; apply safe_noexcept; (eapply safe_bind; [apply safe_act; [done|intros; exact Logic.I]|]; intros a _);
    [by apply safe_move_ind|by apply safe_move_ind|by apply safe_move_poly|by apply safe_move_poly14].
Qed.
Lemma safe_h_dtor w : own w -> safe_w (i_dtor I w) (fun _ => True).
Proof.
  intros. destruct h; (eapply safe_bind; [apply safe_noexcept|intros _ _; by apply safe_act]);
    [by apply safe_reset_ind|by apply safe_reset_ind|by apply safe_reset_poly|by apply safe_reset_poly].
Qed.
Lemma safe_h_casg w y : own w -> safe_w (i_copy_assign I w y) (fun _ => True).
Proof.
  intros. destruct h; [by apply safe_copy_assign_ind|by apply safe_copy_assign_ind|
    by apply safe_copy_assign_poly|by apply safe_copy_assign_poly].
Qed.
Lemma safe_h_masg w y : own w -> own y -> safe_w (i_move_assign I w y) (fun _ => True).
Proof.
  intros. destruct h; [by apply safe_move_assign_ind|by apply safe_move_assign_ind|
    by apply safe_move_assign_poly|by apply safe_move_assign_poly].
Qed.
Lemma safe_h_swap w y : own w -> own y -> safe_w (i_swap I w y) (fun _ => True).
Proof. intros. destruct h; by apply safe_swap_ind. Qed.
Lemma safe_h_star w : safe_w (i_star I w) (fun l => own w -> l ∉ rob).
Proof. destruct h; [apply safe_deref_p|apply safe_deref_p|apply safe_star_poly|apply safe_star_poly]. Qed.
Lemma safe_h_valueless w : safe_w (i_valueless I w) (fun _ => True).
Proof. destruct h; simpl; done. Qed.
Lemma safe_h_alloc w : safe_w (i_alloc I w) (fun _ => True).
Proof. destruct h; simpl; done. Qed.
End hdr.

Lemma safe_star h w : safe_w (i_star (header_impl (E := E) h) w) (fun l => own w -> l ∉ rob).
Proof. destruct h; [apply safe_deref_p|apply safe_deref_p|apply safe_star_poly|apply safe_star_poly]. Qed.

Definition conf_arg_ok (g : carg E) : Prop :=
  match g with
  | GArgs _ | GExt ConstL _ | GDeref ConstL _ => True
  | GExt _ n => ownx n
  | GDeref _ y => own y
  end.

Lemma safe_eval h g : conf_arg_ok g ->
  safe_w (eval_arg (header_impl h) g) (fun x => cons_arg_ok x /\ asgn_arg_ok x).
Proof.
  intros Hg. destruct g as [c|c n|c y]; simpl.
  - done.
  - by destruct c.
  - eapply safe_bind; [apply safe_star|]. intros l Hl. simpl. destruct c; simpl in *; auto.
Qed.

Lemma safe_quiet (p : prog E unit) Q : safe_w p Q -> safe_w (quiet p) (fun _ => True).
Proof. intros Hp. eapply safe_bind; [exact Hp|]. done. Qed.

Lemma safe_with_arg h g (f : arg E -> prog E unit) :
  conf_arg_ok g -> (forall x, cons_arg_ok x -> asgn_arg_ok x -> safe_w (f x) (fun _ => True)) ->
  safe_w (quiet (bind (eval_arg (header_impl h) g) f)) (fun _ => True).
Proof.
  intros Hg Hf. eapply safe_quiet, safe_bind; [by apply safe_eval|]. intros x [H1 H2]. by apply Hf.
Qed.

Definition confined_ok (o : op E) : Prop :=
  match o with
  | ODefault x | ODefaultA x _ => own x
  | OValue x _ g | OInPlace x _ g | OIlist x _ g
  | OValueA x _ _ g | OInPlaceA x _ _ g | OIlistA x _ _ g => own x /\ conf_arg_ok g
  | OCopy x _ | OCopyA x _ _ | OAssignC x _ => own x
  | OMove x y | OMoveA x _ y | OAssignM x y | OSwap x y => own x /\ own y
  | ODestroy x | OMutate x _ => own x
  | OAssignV x g => own x /\ conf_arg_ok g
  | OGet _ | OValueless _ | OGetAlloc _ => True
  | OExtSet n _ _ => ownx n
  end.

Lemma safe_interp h (o : op E) : confined_ok o -> safe_w (interp (header_impl h) o) (fun _ => True).
Proof.
  intros Ho. pose proof flat_confined as HF.
  destruct o as [x|x a|x t g|x a t g|x t g|x a t g|x t g|x a t g|x y|x a y|x y|x a y|x|x y|x y|x g|x y|x f
                |x|x|x|n t v]; cbn [confined_ok] in Ho; cbn [interp].
  - eapply safe_quiet. destruct h; [by apply safe_ctor_from|by apply safe_ctor_from|by apply safe_ctor_poly|
      by apply safe_ctor_poly].
  - eapply safe_quiet. destruct h; [by apply safe_ctor_from|by apply safe_ctor_from|by apply safe_ctor_poly|
      by apply safe_ctor_poly].
  - apply safe_with_arg; [tauto|]. intros v H1 _. destruct h; [apply safe_ctor_from|apply safe_ctor_from|
      apply safe_ctor_poly|apply safe_ctor_poly]; tauto.
  - apply safe_with_arg; [tauto|]. intros v H1 _. destruct h; [apply safe_ctor_from|apply safe_ctor_from|
      apply safe_ctor_poly|apply safe_ctor_poly]; tauto.
  - apply safe_with_arg; [tauto|]. intros v H1 _. destruct h; [apply safe_ctor_from|apply safe_ctor_from|
      apply safe_ctor_poly|apply safe_ctor_poly]; tauto.
  - apply safe_with_arg; [tauto|]. intros v H1 _. destruct h; [apply safe_ctor_from|apply safe_ctor_from|
      apply safe_ctor_poly|apply safe_ctor_poly]; tauto.
  - apply safe_with_arg; [tauto|]. intros v H1 _. destruct h; [apply safe_ctor_from|apply safe_ctor_from|
      apply safe_ctor_poly|apply safe_ctor_poly]; tauto.
  - apply safe_with_arg; [tauto|]. intros v H1 _. destruct h; [apply safe_ctor_from|apply safe_ctor_from|
      apply safe_ctor_poly|apply safe_ctor_poly]; tauto.
  - eapply safe_quiet.
    destruct h; (eapply safe_bind; [apply safe_act; [done|intros; exact I]|]; intros a _);
      [by apply safe_copy_ind|by apply safe_copy_ind|by apply safe_copy_poly|by apply safe_copy_poly].
  - eapply safe_quiet. destruct h; [by apply safe_copy_ind|by apply safe_copy_ind|by apply safe_copy_poly|
      by apply safe_copy_poly].
  - eapply safe_quiet. destruct Ho as [Hx Hy].
    destruct h; apply safe_noexcept; (eapply safe_bind; [apply safe_act; [done|intros; exact I]|]; intros a _);
      [by apply safe_move_ind|by apply safe_move_ind|by apply safe_move_poly|by apply safe_move_poly14].
  - eapply safe_quiet. destruct Ho as [Hx Hy].
    destruct h; [by apply safe_move_ind|by apply safe_move_ind|by apply safe_move_poly|by apply safe_move_poly14].
  - eapply safe_quiet. destruct h; (eapply safe_bind; [apply safe_noexcept|intros _ _; by apply safe_act]);
      [by apply safe_reset_ind|by apply safe_reset_ind|by apply safe_reset_poly|by apply safe_reset_poly].
  - eapply safe_quiet. destruct h; [by apply safe_copy_assign_ind|by apply safe_copy_assign_ind|
      by apply safe_copy_assign_poly|by apply safe_copy_assign_poly].
  - eapply safe_quiet. destruct Ho as [Hx Hy]. destruct h; [by apply safe_move_assign_ind|by apply safe_move_assign_ind|
      by apply safe_move_assign_poly|by apply safe_move_assign_poly].
  - apply safe_with_arg; [tauto|]. intros v H1 H2. destruct h; [apply safe_value_assign_ind|apply safe_value_assign_ind|
      apply safe_act|apply safe_act]; simpl; tauto.
  - eapply safe_quiet. destruct Ho as [Hx Hy]. destruct h; by apply safe_swap_ind.
  - apply (safe_quiet _ (fun _ => True)). eapply safe_bind; [apply safe_star|]. intros l Hl. apply safe_act; [|done]. simpl. auto.
  - eapply safe_bind; [apply safe_star|]. intros l Hl. simpl. done.
  - destruct h; simpl; done.
  - destruct h; simpl; done.
  - simpl. done.
Qed.

End static.
