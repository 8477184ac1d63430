(** * Programs throw only if the environment does. *)

From stdpp Require Import base gmap list.
From Verif Require Import Lang Common Indirect20 Indirect14 Polymorphic20 Polymorphic14 Client Rep Hist Tree TreeClient.

Section calm.
Context {E : Env}.
Local Open Scope prog_scope.

(** No allocation, construction or assignment will fail. *)
Definition no_fail (s : store E) : Prop := forall e, RespFail e ∉ orc s.

Definition calm {X} (p : prog E X) : Prop :=
  forall s, no_fail s -> match run p s with ORet _ s' => no_fail s' | OUB _ => True | OThrow _ _ | OTerm => False end.

(** Actions that involve no decision of the environment. *)
Definition smooth {R} (p : prim E R) : bool :=
  match p with PAlloc _ _ | PCons _ _ _ _ | PAsgn _ _ _ | PTerminate => false | _ => true end.

Lemma orc_ref r v (s : store E) : orc (upd_ref r v s) = orc s.
Proof. by destruct r. Qed.
Lemma orc_src x v (s : store E) : orc (upd_src x v s) = orc s.
Proof. destruct x as [c|[] r]; cbn; try done; apply orc_ref. Qed.
Lemma pop_calm s r s1 : no_fail s -> pop s = (r, s1) -> (exists h, r = RespOk h) /\ no_fail s1.
Proof.
  unfold pop, no_fail. destruct (orc s) as [|r' o] eqn:Ho; intros Hn Hp; simplify_eq.
  - split; [by exists 0|]. by rewrite Ho.
  - split.
    + destruct r as [h|e]; [by exists h|]. exfalso. apply (Hn e). left.
    + cbn. intros e He. apply (Hn e). by right.
Qed.

Lemma exec_smooth {R} (p : prim E R) s : smooth p = true -> no_fail s ->
  match exec p s with ROk _ s' => no_fail s' | RUB _ => True | RTerm => False end.
Proof.
  intros Hp Hs. destruct p; try done; cbn [exec]; cbn [smooth] in Hp; try done.
  all: repeat match goal with |- context [match ?x with _ => _ end] => lazymatch x with context [match _ with _ => _ end] => fail | _ => destruct x end end; try done.
  unfold no_fail in *. by rewrite orc_ref.
Qed.

Lemma calm_ret {X} (x : X) : calm (Ret x).
Proof. by intros s Hs. Qed.
Lemma calm_bind {X Y} (p : prog E X) (f : X -> prog E Y) : calm p -> (forall x, calm (f x)) -> calm (bind p f).
Proof.
  intros Hp Hf s Hs. rewrite run_bind. specialize (Hp s Hs). destruct (run p s); try done. by apply Hf.
Qed.
Lemma calm_catch {X} (p : prog E X) h : calm p -> calm (catch p h).
Proof. intros Hp s Hs. rewrite run_catch. specialize (Hp s Hs). by destruct (run p s). Qed.
Lemma calm_noexcept {X} b (p : prog E X) : calm p -> calm (noexcept_if b p).
Proof. destruct b; [apply calm_catch|done]. Qed.
Lemma calm_act {R} (p : prim E R) : smooth p = true -> calm (act p).
Proof. intros Hp s Hs. cbn. pose proof (exec_smooth p s Hp Hs). by destruct (exec p s). Qed.
Lemma calm_undef {X} u (k : unit -> prog E X) : calm (Act (PUndef u) k).
Proof. by intros s Hs. Qed.
Lemma calm_alloc a b : calm (act_thr (PAlloc (E := E) a b)).
Proof.
  intros s Hs. cbn. destruct (pop s) as [r s1] eqn:Hp. destruct (pop_calm _ _ _ Hs Hp) as [[h ->] Hs1]. done.
Qed.
Lemma calm_cons a t l x : calm (act_thr (PCons (E := E) a t l x)).
Proof.
  intros s Hs. cbn. destruct (blocks s !! l) as [b|]; [|done]. destruct (storage_for t b); [|done]. cbn.
  destruct (b_obj b); try done. destruct (cons_vals a t x s) as [|[[v v1] v2]]; [done|].
  destruct (pop s) as [r s1] eqn:Hp. destruct (pop_calm _ _ _ Hs Hp) as [[h ->] Hs1]. cbn.
  unfold no_fail in *. cbn. by rewrite orc_src.
Qed.
Lemma calm_asgn t l x : calm (act_thr (PAsgn (E := E) t l x)).
Proof.
  intros s Hs. cbn [act_thr run exec]. destruct (deref (RBlk l) s) as [|[t0 v0]]; [done|]. destruct (negb _); [done|].
  destruct (asgn_vals l t0 v0 x s) as [|[[d v] [df vf]]]; [done|].
  destruct (pop s) as [r s1] eqn:Hp. destruct (pop_calm _ _ _ Hs Hp) as [[h ->] Hs1]. cbn.
  unfold no_fail in *. cbn. by rewrite orc_src.
Qed.
Lemma calm_stuck {X} : calm (stuck (E := E) (X := X)).
Proof. apply calm_undef. Qed.
End calm.

Ltac calm :=
  repeat (intros; match goal with
  | H : _ |- calm _ => solve [apply H]
  | |- calm (let x := _ in _) => cbn zeta
  | |- calm (bind _ _) => apply calm_bind
  | |- calm (catch _ _) => apply calm_catch
  | |- calm (noexcept_if _ _) => apply calm_noexcept
  | |- calm (Ret _) => apply calm_ret
  | |- calm (act _) => apply calm_act; reflexivity
  | |- calm (act_thr (PAlloc _ _)) => apply calm_alloc
  | |- calm (act_thr (PCons _ _ _ _)) => apply calm_cons
  | |- calm (act_thr (PAsgn _ _ _)) => apply calm_asgn
  | |- calm (Act (PUndef _) _) => apply calm_undef
  | |- calm stuck => apply calm_stuck
  | |- calm (if ?b then _ else _) => destruct b
  | |- calm (match ?x with _ => _ end) => destruct x
  end).

Section headers.
Context {E : Env}.
Local Open Scope prog_scope.

Record calm_tp (T : TP E) : Prop := {
  ct_cons : forall a t l x, calm (tp_cons T a t l x);
  ct_destroy : forall a t l, calm (tp_destroy T a t l);
  ct_asgn : forall t l x, calm (tp_asgn T t l x);
}.

Lemma calm_ctor w p a (body : prog E unit) : calm body -> calm (ctor w p a body).
Proof. intros Hb. unfold ctor. calm. Qed.
Lemma calm_deref_p w : calm (deref_p (E := E) w).
Proof. unfold deref_p. calm. Qed.
Lemma calm_swap_p x y : calm (swap_p (E := E) x y).
Proof. unfold swap_p. calm. Qed.
Lemma calm_swap_a x y : calm (swap_a (E := E) x y).
Proof. unfold swap_a. calm. Qed.
Lemma calm_unreachable : calm (unreachable (E := E)).
Proof. unfold unreachable. calm. Qed.

Record calm_impl (I : impl E) : Prop := {
  ci_inplace_a : forall x a t g, calm (i_inplace_a I x a t g);
  ci_copy : forall x y, calm (i_copy I x y);
  ci_copy_a : forall x a y, calm (i_copy_a I x a y);
  ci_move : forall x y, calm (i_move I x y);
  ci_move_a : forall x a y, calm (i_move_a I x a y);
  ci_dtor : forall x, calm (i_dtor I x);
  ci_copy_assign : forall x y, calm (i_copy_assign I x y);
  ci_move_assign : forall x y, calm (i_move_assign I x y);
  ci_swap : forall x y, calm (i_swap I x y);
  ci_star : forall x, calm (i_star I x);
  ci_valueless : forall x, calm (i_valueless I x);
  ci_alloc : forall x, calm (i_alloc I x);
}.

Ltac parts := repeat (intros; first
  [ apply calm_ctor | apply calm_deref_p | apply calm_swap_p | apply calm_swap_a | apply calm_unreachable
  | progress calm ]).

Lemma hdr_calm h T : calm_tp T -> calm_impl (hdr_impl h T).
Proof.
  intros [Hc Hd Ha]. destruct h; split; intros; cbn [hdr_impl]; unfold indirect20, indirect14, polymorphic20, polymorphic14;
    cbn [i_inplace_a i_copy i_copy_a i_move i_move_a i_dtor i_copy_assign i_move_assign i_swap i_star i_valueless i_alloc].
  all: repeat first [unfold Indirect20.ctor_inplace_a, Indirect20.ctor_copy, Indirect20.ctor_move, Indirect20.dtor,
    Indirect20.copy_assign, Indirect20.move_assign, Indirect20.swap, Indirect20.get_allocator, Indirect20.ctor_from,
    Indirect20.ctor_copy_a, Indirect20.ctor_move_a, Indirect20.reset, Indirect20.construct_from, Indirect20.destroy_with,
    Indirect20.op_star, Indirect20.valueless_after_move].
  all: repeat first [unfold Indirect14.ctor_inplace_a, Indirect14.ctor_copy, Indirect14.ctor_move, Indirect14.dtor,
    Indirect14.copy_assign, Indirect14.move_assign, Indirect14.swap, Indirect14.get_allocator,
    Indirect14.ctor_copy_a, Indirect14.ctor_move_a, Indirect14.reset, Indirect14.construct_from, Indirect14.destroy_with,
    Indirect14.op_star, Indirect14.valueless_after_move].
  all: repeat first [unfold Polymorphic20.ctor_inplace_a, Polymorphic20.ctor_copy, Polymorphic20.ctor_move, Polymorphic20.dtor,
    Polymorphic20.copy_assign, Polymorphic20.move_assign, Polymorphic20.swap, Polymorphic20.get_allocator,
    Polymorphic20.ctor_copy_a, Polymorphic20.ctor_move_a, Polymorphic20.exchange_null, Polymorphic20.reset,
    Polymorphic20.create_control_block, Polymorphic20.cb_clone, Polymorphic20.cb_move, Polymorphic20.cb_destroy, Polymorphic20.cb_ctor,
    Polymorphic20.op_star, Polymorphic20.valueless_after_move].
  all: repeat first [unfold Polymorphic14.ctor_inplace_a, Polymorphic14.ctor_copy, Polymorphic14.ctor_move, Polymorphic14.dtor,
    Polymorphic14.copy_assign, Polymorphic14.move_assign, Polymorphic14.swap, Polymorphic14.get_allocator,
    Polymorphic14.ctor_copy_a, Polymorphic14.ctor_move_a, Polymorphic14.take, Polymorphic14.reset,
    Polymorphic14.create_control_block, Polymorphic14.cb_clone, Polymorphic14.cb_move, Polymorphic14.cb_destroy, Polymorphic14.cb_ctor,
    Polymorphic14.op_star, Polymorphic14.valueless_after_move].
  all: parts.
Qed.

Context (Sh : Shape E).

Lemma calm_make mk un i n : (forall j, calm (mk j)) -> calm (make_members (E := E) mk un i n).
Proof. intros Hm. revert i. induction n as [|n IH]; intros i; cbn [make_members destroy_members assign_members]; calm. Qed.
Lemma calm_unmake un i n : (forall j, calm (un j)) -> calm (destroy_members (E := E) un i n).
Proof. intros Hm. revert i. induction n as [|n IH]; intros i; cbn [make_members destroy_members assign_members]; calm. Qed.
Lemma calm_assign asg i n : (forall j, calm (asg j)) -> calm (assign_members (E := E) asg i n).
Proof. intros Hm. revert i. induction n as [|n IH]; intros i; cbn [make_members destroy_members assign_members]; calm. Qed.
Lemma calm_node a t l x mk un : (forall j, calm (mk j)) -> calm (node_cons Sh a t l x mk un).
Proof. intros Hm. unfold node_cons. calm. apply calm_make. calm. Qed.

Lemma node_calm n : calm_tp (nodeTP Sh n).
Proof.
  induction n as [|n IH]; [by split; intros; apply calm_stuck|].
  split.
  - intros a t l x. cbn [nodeTP nodeTP_step tp_cons]. destruct x as [c|[] [r|r]]; try apply calm_stuck; apply calm_node; intros j.
    + destruct (k_args Sh c !! j); [|apply calm_stuck]. by apply ci_move, hdr_calm.
    + by apply ci_copy, hdr_calm.
    + by apply ci_copy, hdr_calm.
    + by apply ci_move, hdr_calm.
  - intros a t l. cbn [nodeTP nodeTP_step tp_destroy]. calm. apply calm_unmake. intros j. by apply ci_dtor, hdr_calm.
  - intros t l x. cbn [nodeTP nodeTP_step tp_asgn]. destruct x as [c|c [r|r]]; try apply calm_stuck. calm; intros _; apply calm_assign; intros j.
    + by apply ci_copy_assign, hdr_calm.
    + by apply ci_copy_assign, hdr_calm.
    + by apply ci_move_assign, hdr_calm.
Qed.
Lemma impl_calm n h : calm_impl (node_impl Sh n h).
Proof. apply hdr_calm, node_calm. Qed.

Lemma locate_calm n w h p : calm (locate (nodeTP Sh n) w h p).
Proof.
  revert w h. induction p as [|[i h'] p IH]; intros w h; cbn [locate]; calm.
  apply ci_star, hdr_calm, node_calm.
Qed.

Lemma tinterp_calm n o : calm (tinterp Sh n o).
Proof.
  pose proof (fun h => ci_inplace_a _ (impl_calm n h)). pose proof (fun h => ci_copy _ (impl_calm n h)).
  pose proof (fun h => ci_copy_a _ (impl_calm n h)). pose proof (fun h => ci_move _ (impl_calm n h)).
  pose proof (fun h => ci_move_a _ (impl_calm n h)). pose proof (fun h => ci_dtor _ (impl_calm n h)).
  pose proof (fun h => ci_copy_assign _ (impl_calm n h)). pose proof (fun h => ci_move_assign _ (impl_calm n h)).
  pose proof (fun h => ci_swap _ (impl_calm n h)). pose proof (fun h => ci_star _ (impl_calm n h)).
  pose proof (fun h => ci_valueless _ (impl_calm n h)). pose proof (fun h => ci_alloc _ (impl_calm n h)).
  pose proof (locate_calm n).
  destruct o; cbn [tinterp interp eval_arg]; unfold quiet, find, pimpl; calm.
Qed.

(** If the environment does not fail, nothing throws and the program is not terminated. *)
Lemma client_calm n c s : no_fail s ->
  match run_tclient Sh n c s with
  | HOk outs s' => (forall r, r ∈ outs -> exists x, r = inl x) /\ no_fail s'
  | HUB _ => True
  | HTerm => False
  end.
Proof.
  revert s. induction c as [|o next IH]; intros s Hs; cbn.
  { split; [|done]. intros r Hr. by apply elem_of_nil in Hr. }
  pose proof (tinterp_calm n o s Hs) as Ho. destruct (run (tinterp Sh n o) s) as [x s1|e s1|u|]; try done.
  specialize (IH (inl x) s1 Ho). destruct (run_tclient Sh n (next (inl x)) s1) as [outs s'|u|]; try done.
  destruct IH as [IH1 IH2]. split; [|done]. intros r Hr. apply elem_of_cons in Hr as [->|Hr]; [by exists x|by apply IH1].
Qed.
End headers.
