(** * What user-written classes write, by inspection of their programs. *)

From stdpp Require Import base gmap list.
From Verif Require Import Lang Common Client Spec Rep Headers Hist Tree Conc ConcStatic Contract ContractUser.

Section polite.
Context {E : Env} (rob : gset loc) (own : wl -> Prop) (ownx : nat -> Prop).
Context (Hmem : forall l i, l ∉ rob -> own (WMem l i)).
Notation safe_w := (safe_w rob own ownx).
Notation tp_confined := (tp_confined rob own ownx).
Notation any := (fun _ => True).

Lemma safe_stuck {X} (Q : X -> Prop) : safe_w (stuck (E := E)) Q.
Proof. by split. Qed.

Lemma safe_make_members mk un i n :
  (forall j, safe_w (mk j) any) -> (forall j, safe_w (un j) any) -> safe_w (make_members (E := E) mk un i n) any.
Proof.
  intros Hm Hu. revert i. induction n as [|n IH]; intros i; [done|]. cbn [make_members].
  eapply safe_bind; [apply Hm|]. intros _ _. apply safe_catch; [apply IH|]. intros e.
  eapply safe_bind; [apply Hu|]. by intros _ _.
Qed.
Lemma safe_destroy_members un i n : (forall j, safe_w (un j) any) -> safe_w (destroy_members (E := E) un i n) any.
Proof.
  intros Hu. revert i. induction n as [|n IH]; intros i; [done|]. cbn [destroy_members].
  eapply safe_bind; [apply IH|]. intros _ _. apply Hu.
Qed.
Lemma safe_assign_members asg i n : (forall j, safe_w (asg j) any) -> safe_w (assign_members (E := E) asg i n) any.
Proof.
  intros Hu. revert i. induction n as [|n IH]; intros i; [done|]. cbn [assign_members].
  eapply safe_bind; [apply Hu|]. intros _ _. apply IH.
Qed.

Lemma safe_node_cons Sh a t l x mk un :
  l ∉ rob -> cons_arg_ok rob ownx x -> (forall j, safe_w (mk j) any) -> (forall j, safe_w (un j) any) ->
  safe_w (node_cons (E := E) Sh a t l x mk un) any.
Proof.
  intros Hl Hx Hm Hu. unfold node_cons. eapply safe_bind; [by apply (safe_act_thr _ _ _ _ any)|]. intros _ _.
  eapply safe_bind; [by apply (safe_act _ _ _ _ any)|]. intros d _. apply safe_catch; [by apply safe_make_members|].
  intros e. eapply safe_bind; [by apply (safe_act _ _ _ _ any)|]. by intros _ _.
Qed.

Lemma node_confined Sh T : (forall c, k_args Sh c = []) -> tp_confined T -> tp_confined (nodeTP_step (E := E) Sh T).
Proof.
  intros HS HT.
  assert (Hun : forall h l i, l ∉ rob -> safe_w (i_dtor (hdr_impl h T) (WMem l i)) any).
  { intros h l i Hl. apply safe_h_dtor; [done|by apply Hmem]. }
  split.
  - intros a t l x Hl Hx. cbn [nodeTP_step tp_cons]. destruct x as [c|[] [o|n]]; try apply safe_stuck.
    + apply safe_node_cons; [done..| |auto]. intros j. rewrite HS. cbn. apply safe_stuck.
    + apply safe_node_cons; [done..| |auto]. intros j. apply safe_h_copy; [done|by apply Hmem].
    + apply safe_node_cons; [done..| |auto]. intros j. apply safe_h_copy; [done|by apply Hmem].
    + apply safe_node_cons; [done..| |auto]. intros j. apply safe_h_move; [done|by apply Hmem|by apply Hmem].
  - intros a t l Hl. cbn [nodeTP_step tp_destroy].
    eapply safe_bind; [by apply (safe_act _ _ _ _ any)|]. intros d _.
    eapply safe_bind; [by apply (safe_act _ _ _ _ any)|]. intros _ _.
    eapply safe_bind; [apply safe_destroy_members; auto|]. intros _ _. by apply (safe_act _ _ _ _ any).
  - intros t l x Hl Hx. cbn [nodeTP_step tp_asgn]. destruct x as [c|c [o|n]]; try apply safe_stuck.
    eapply safe_bind; [by apply (safe_act _ _ _ _ any)|]. intros d _.
    eapply safe_bind; [by apply (safe_act _ _ _ _ any)|]. intros d' _.
    destruct (Nat.eqb _ _); [|apply safe_stuck]. destruct c.
    + eapply safe_bind; [by apply (safe_act_thr _ _ _ _ any)|]. intros _ _. apply safe_assign_members.
      intros j. apply safe_h_casg; [done|by apply Hmem].
    + eapply safe_bind; [by apply (safe_act_thr _ _ _ _ any)|]. intros _ _. apply safe_assign_members.
      intros j. apply safe_h_casg; [done|by apply Hmem].
    + eapply safe_bind; [by apply (safe_act_thr _ _ _ _ any)|]. intros _ _. apply safe_assign_members.
      intros j. apply safe_h_masg; [done|by apply Hmem|by apply Hmem].
Qed.

Lemma tower_confined Sh T n : (forall c, k_args Sh c = []) -> tp_confined T -> tp_confined (towerTP (E := E) Sh T n).
Proof. intros HS HT. induction n as [|n IH]; [done|]. by apply node_confined. Qed.

Lemma copy_only_confined T : tp_confined T -> tp_confined (copy_onlyTP (E := E) T).
Proof.
  intros [H1 H2 H3]. split; [|exact H2|exact H3]. intros a t l x Hl Hx. apply H1; [done|]. by destruct x as [|[] r].
Qed.

Lemma handle_confined h0 t0 T : tp_confined T -> tp_confined (handleTP (E := E) h0 t0 T).
Proof.
  intros HT. destruct (node_confined (handle_shape h0) T) as [N1 N2 N3]; [done|done|]. split; [|exact N2|].
  - intros a t l x Hl Hx. cbn [handleTP tp_cons]. destruct x as [c|[] r]; [|by apply N1..].
    eapply safe_bind; [by apply (safe_act_thr _ _ _ _ any)|]. intros _ _.
    apply safe_catch; [apply safe_h_make; [done|by apply Hmem|done]|]. intros e.
    eapply safe_bind; [by apply (safe_act _ _ _ _ any)|]. by intros _ _.
  - intros t l x Hl Hx. cbn [handleTP tp_asgn]. destruct x as [c|c [o|n]]; try apply safe_stuck.
    eapply safe_bind; [by apply (safe_act _ _ _ _ any)|]. intros d _.
    eapply safe_bind; [apply safe_h_copy; [done|by apply Hmem]|]. intros _ _.
    eapply safe_bind; [apply safe_h_swap; [by apply Hmem|by apply Hmem]|]. intros _ _.
    eapply safe_bind; [by apply (safe_act _ _ _ _ any)|]. intros _ _.
    apply safe_h_dtor; [done|by apply Hmem].
Qed.
Lemma stuck_confined : tp_confined (mkTP E (fun _ _ _ _ => stuck) (fun _ _ _ => stuck) (fun _ _ _ => stuck)).
Proof. split; intros; apply safe_stuck. Qed.
End polite.
