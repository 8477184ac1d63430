(** * Value semantics over any value type that keeps its contract: the theorems.

    [T : TP E] are the special member functions of the value type (and of the classes derived
    from it): arbitrary programs, which may allocate, use wrappers of their own, throw, and so
    on.  [K : Cls E] says what the class means (Contract.v) and [Honest T K] that the programs
    do what [K] says, touching only the object and what it owns.  [wrapper_at s h x k B W]: the
    wrapper [x] of [s] is in state [k] ([k.1] the type and value of what it owns, or [None];
    [k.2] its allocator), and owns exactly the memory [B], [W].  [changed s s' B W B' W']: [s']
    is [s] with [B], [W] replaced by [B'], [W']: nothing else has changed and nothing leaks. *)

From stdpp Require Import base gmap list.
From Verif Require Import Lang Common Client Spec Rep RunLemmas Headers Hist Tree TreeProps TreeAssign TreeEx Ex
  Contract ContractProps ContractOps ContractMove ContractNode ContractClient ContractClientProps ContractUser ContractUserProps.

(** ** C46: the operations *)

(** Construction from arguments, in place, gives a wrapper owning what the class constructs. *)
Theorem C46_make {E : Env} (T : TP E) (K : Cls E) (HO : Honest T K) h x a t c (s : store E) :
  (exists v, c_make K (made (E := E) h t) a c v) -> mem_ok s -> home s x -> wraps s !! x = None ->
  match run (i_inplace_a (hdr_impl h T) x a t (AArgs c)) s with
  | ORet _ s' => exists v B W, c_make K (made (E := E) h t) a c v /\
      wrapped K h x (Some (made (E := E) h t, v), a) B W /\ changed s s' ∅ ∅ B W
  | OThrow _ s' => blocks s' = blocks s /\ wraps s' = wraps s /\ exts s' = exts s
  | _ => False
  end.
Proof.
  intros Hv HM Hh Hx. assert (G := make_g T K HO h x a t c s Hv HM Hh Hx).
  destruct (run _ s) as [| | |]; [exact G|by destruct G|done|done].
Qed.
Print Assumptions C46_make.

(** Copying: the copy owns what the class's copy constructor makes of the value; the source and
    everything else are untouched.  If something throws, nothing has changed. *)
Theorem C46_copy {E : Env} (T : TP E) (K : Cls E) (HO : Honest T K) h x y k B W (s : store E) :
  mem_ok s -> home s x -> wraps s !! x = None -> wrapper_at K s h y k B W ->
  match run (i_copy (hdr_impl h T) x y) s with
  | ORet _ s' => exists k' B' W', copied K (a_soccc E k.2) k k' /\ wrapped K h x k' B' W' /\ changed s s' ∅ ∅ B' W'
  | OThrow _ s' => blocks s' = blocks s /\ wraps s' = wraps s /\ exts s' = exts s
  | _ => False
  end.
Proof.
  intros HM Hh Hx Hy. assert (G := copy_g T K HO h x y k B W s HM Hh Hx Hy).
  destruct (run _ s) as [| | |]; [exact G|by destruct G|done|done].
Qed.
Print Assumptions C46_copy.

Theorem C46_copy_alloc {E : Env} (T : TP E) (K : Cls E) (HO : Honest T K) h x a y k B W (s : store E) :
  mem_ok s -> home s x -> wraps s !! x = None -> wrapper_at K s h y k B W ->
  match run (i_copy_a (hdr_impl h T) x a y) s with
  | ORet _ s' => exists k' B' W', copied K a k k' /\ wrapped K h x k' B' W' /\ changed s s' ∅ ∅ B' W'
  | OThrow _ s' => blocks s' = blocks s /\ wraps s' = wraps s /\ exts s' = exts s
  | _ => False
  end.
Proof.
  intros HM Hh Hx Hy. assert (G := copya_g T K HO h x a y k B W s HM Hh Hx Hy).
  destruct (run _ s) as [| | |]; [exact G|by destruct G|done|done].
Qed.
Print Assumptions C46_copy_alloc.

(** Moving never fails, and never calls the class: the very same memory changes hands. *)
Theorem C46_move {E : Env} (T : TP E) (K : Cls E) (Hrefl : forall a, a_eqb E a a = true) h x y k B W (s : store E) :
  wraps s !! x = None -> wrapper_at K s h y k B W ->
  exists s' Wx, run (i_move (hdr_impl h T) x y) s = ORet tt s' /\
    wrapped K h x k B Wx /\ changed s s' B W B (Wx ∪ {[ y := mkW PNull k.2 ]}).
Proof.
  intros Hx Hy. destruct (wr_ptr _ _ _ _ _ _ _ Hy) as (p & Hp & Hys & HyW & _).
  assert (HxW : W !! x = None).
  { destruct (W !! x) as [w|] eqn:HwX; [|done]. pose proof (lookup_weaken _ _ _ _ HwX (wa_w _ _ _ _ _ _ _ Hy)). congruence. }
  destruct (TreeMove.move_steal Hrefl T h x y p k.2 s Hx Hys Hp) as (s' & R & E1 & E2 & E3).
  assert (Hxy : x <> y) by congruence. destruct Hy as [Hy HB HW].
  destruct (wrapped_to K h y x k k.2 B W Hy) as (p' & Hp' & _ & Hw); [by rewrite lookup_delete_ne|done|].
  assert (p' = p) as -> by congruence.
  exists s', (<[x := mkW p k.2]> (delete y W)). split; [done|]. split; [by destruct k|].
  split; [rewrite E1|rewrite E3|done| |].
  - clear - HB. map_solve.
  - clear - Hxy HW HyW Hx. map_solve.
  - clear. map_solve.
  - clear - HyW Hx HW. map_solve.
Qed.
Print Assumptions C46_move.

(** With another allocator: the memory changes hands if the header finds the allocators equal
    (or need not ask), else a new object is move-constructed. *)
Theorem C46_move_alloc {E : Env} (T : TP E) (K : Cls E) (HO : Honest T K) (HA : AllocReq E) h x a y k B W (s : store E) :
  mem_ok s -> home s x -> wraps s !! x = None -> outside (E := E) x B ->
  wrapper_at K s h y k B W -> enclosedW s y B W ->
  (steals (E := E) h a k.2 = true -> a_res E a = a_res E k.2) ->
  match run (i_move_a (hdr_impl h T) x a y) s with
  | ORet _ s' => exists kx Bx Wx ky By Wy, moved K (steals (E := E) h a k.2) a k kx ky /\
      wrapped K h x kx Bx Wx /\ wrapped K h y ky By Wy /\ Bx ##ₘ By /\ Wx ##ₘ Wy /\
      changed s s' B W (Bx ∪ By) (Wx ∪ Wy)
  | OThrow _ s' => exists ky By Wy, steals (E := E) h a k.2 = false /\ move_broken K k ky /\ wrapped K h y ky By Wy /\ changed s s' B W By Wy
  | _ => False
  end.
Proof.
  intros HM Hh Hx Hout Hy Hen Hst. assert (G := movea_g T K HO HA h x a y k B W s HM Hh Hx Hout Hy Hen Hst).
  destruct (run _ s) as [u s'| | |]; [|exact G|done|done].
  destruct G as (kx & Bx & Wx & ky & By & Wy & G). rewrite !(left_id_L ∅ (∪)) in G. by exists kx, Bx, Wx, ky, By, Wy.
Qed.
Print Assumptions C46_move_alloc.

(** Copy assignment.  [assigned]: the class's own assignment where [indirect] assigns in place,
    else a copy.  [assign_failed]: the target is as it was, unless the class's own assignment
    threw. *)
Theorem C46_copy_assign {E : Env} (T : TP E) (K : Cls E) (HO : Honest T K) (HA : AllocReq E) h x y kx ky Bx Wx By Wy (s : store E) :
  mem_ok s -> enclosedW s x Bx Wx ->
  wrapper_at K s h x kx Bx Wx -> wrapper_at K s h y ky By Wy -> Bx ##ₘ By -> Wx ##ₘ Wy ->
  match run (i_copy_assign (hdr_impl h T) x y) s with
  | ORet _ s' => exists k' B' W', assigned K h kx ky k' /\ wrapped K h x k' B' W' /\ changed s s' Bx Wx B' W'
  | OThrow _ s' => exists k' B' W', assign_failed K h kx ky k' /\ wrapped K h x k' B' W' /\ changed s s' Bx Wx B' W'
  | _ => False
  end.
Proof. exact (casg_g T K HO HA h x y kx ky Bx Wx By Wy s). Qed.
Print Assumptions C46_copy_assign.

(** Move assignment: as move construction with the target's (or the propagated) allocator;
    the program terminates only where the noexcept specification covers a throwing move. *)
Theorem C46_move_assign {E : Env} (T : TP E) (K : Cls E) (HO : Honest T K) (HA : AllocReq E) h x y kx ky Bx Wx By Wy (s : store E) :
  mem_ok s -> wrapper_at K s h x kx Bx Wx -> wrapper_at K s h y ky By Wy -> Bx ##ₘ By -> Wx ##ₘ Wy -> enclosedW s y By Wy ->
  match run (i_move_assign (hdr_impl h T) x y) s with
  | ORet _ s' => exists kx' Bx' Wx' ky' By' Wy', moved K (a_eqb E kx.2 ky.2) (kept (pocma E) kx.2 ky.2) ky kx' ky' /\
      wrapped K h x kx' Bx' Wx' /\ wrapped K h y ky' By' Wy' /\ Bx' ##ₘ By' /\ Wx' ##ₘ Wy' /\
      changed s s' (Bx ∪ By) (Wx ∪ Wy) (Bx' ∪ By') (Wx' ∪ Wy')
  | OThrow _ s' => exists ky' By' Wy', a_eqb E kx.2 ky.2 = false /\ move_broken K ky ky' /\
      wrapped K h y ky' By' Wy' /\ changed s s' By Wy By' Wy'
  | OUB _ => False
  | OTerm => pocma E = true /\ a_eqb E kx.2 ky.2 = false /\ ky.1 <> None
  end.
Proof. exact (masg_g T K HO HA h x y kx ky Bx Wx By Wy s). Qed.
Print Assumptions C46_move_assign.

(** Swapping never fails and never calls the class. *)
Theorem C46_swap {E : Env} (T : TP E) (K : Cls E) (HA : AllocReq E) h x y kx ky Bx Wx By Wy (s : store E) :
  wrapper_at K s h x kx Bx Wx -> wrapper_at K s h y ky By Wy -> Bx ##ₘ By -> Wx ##ₘ Wy ->
  (pocs E = false -> a_eqb E kx.2 ky.2 = true) ->
  exists s' kx' ky' Wx' Wy', run (i_swap (hdr_impl h T) x y) s = ORet tt s' /\
    swapped K kx ky kx' ky' /\ wrapped K h x kx' By Wx' /\ wrapped K h y ky' Bx Wy' /\ Wx' ##ₘ Wy' /\
    changed s s' (Bx ∪ By) (Wx ∪ Wy) (By ∪ Bx) (Wx' ∪ Wy').
Proof. exact (swap_g T K HA h x y kx ky Bx Wx By Wy s). Qed.
Print Assumptions C46_swap.

(** Destruction frees everything the wrapper owns, and never fails. *)
Theorem C46_destroy {E : Env} (T : TP E) (K : Cls E) (HO : Honest T K) h x k B W (s : store E) :
  wrapper_at K s h x k B W ->
  exists s', run (i_dtor (hdr_impl h T) x) s = ORet tt s' /\
    blocks s' = blocks s ∖ B /\ wraps s' = wraps s ∖ W /\ exts s' = exts s.
Proof.
  intros Hx. destruct (dtor_g T K HO s h x k B W Hx) as (s' & R & [C1 C2 C3 _ _]). exists s'.
  rewrite !(left_id_L ∅ (∪)) in *. done.
Qed.
Print Assumptions C46_destroy.

(** ** C46: programs *)

(** Take any program over wrappers, mixing the four headers, over a class with any special
    member functions and any further member functions that keep their contracts.  If the
    program keeps the preconditions of the operations, wherever the specification may lead
    ([gsafe]), then it has no undefined behaviour and no exception escapes the operations
    unseen; what it sees and the final values are what the specification allows ([gexec]); and
    memory holds exactly its variables, disjoint from one another ([held]).  It terminates
    only at a move assignment that propagates an unequal allocator ([gterm]). *)
Theorem C46_programs {E : Env} (T : TP E) (K : Cls E) (HO : Honest T K) (HA : AllocReq E)
    (Hrefl : forall a, a_eqb E a a = true)
    (M X : Type) (code : M -> loc -> prog E X) (sem : M -> ty -> c_val K -> X + exn -> c_val K -> Prop)
    (HC : forall f, Method K (code f) (sem f)) (hs : nat -> header) c m (s : store E) :
  held K hs s m -> gsafe K M X sem hs c m ->
  match run (gprog T M X code hs c) s with
  | ORet rs s' => exists m', gexec K M X sem hs c m rs m' /\ held K hs s' m'
  | OTerm => gterm K M X sem hs c m
  | _ => False
  end.
Proof. exact (client_run T K HO HA Hrefl M X code sem HC hs c m s). Qed.
Print Assumptions C46_programs.

(** So a program that starts with nothing and destroys its variables leaks nothing. *)
Theorem C46_no_leak {E : Env} (T : TP E) (K : Cls E) (HO : Honest T K) (HA : AllocReq E)
    (Hrefl : forall a, a_eqb E a a = true)
    (M X : Type) (code : M -> loc -> prog E X) (sem : M -> ty -> c_val K -> X + exn -> c_val K -> Prop)
    (HC : forall f, Method K (code f) (sem f)) (hs : nat -> header) c (s : store E) rs s' :
  blocks s = ∅ -> wraps s = ∅ -> gsafe K M X sem hs c ∅ ->
  (forall rs m', gexec K M X sem hs c ∅ rs m' -> m' = ∅) ->
  run (gprog T M X code hs c) s = ORet rs s' -> blocks s' = ∅ /\ wraps s' = ∅.
Proof.
  intros Hb Hw Hsafe Hend Hrun.
  assert (G := client_run T K HO HA Hrefl M X code sem HC hs c ∅ s (proj2 (held_empty K hs s) (conj Hb Hw)) Hsafe).
  rewrite Hrun in G. destruct G as (m' & Hex & Hh). rewrite (Hend _ _ Hex) in Hh. by apply held_empty in Hh.
Qed.
Print Assumptions C46_no_leak.

(** The variables an operation may change. *)
Definition writes {E M} (o : gop (E := E) M) (z : nat) : bool :=
  match o with
  | GMake x _ _ _ | GCopy x _ | GCopyA x _ _ | GAssign x _ | GDestroy x | GCall x _ => Nat.eqb x z
  | GMove x y | GMoveA x _ y | GMoveAssign x y | GSwap x y => Nat.eqb x z || Nat.eqb y z
  | GValueless _ | GAlloc _ => false
  end.
Fixpoint never_writes {E M X} (c : gclient (E := E) M X) (z : nat) : Prop :=
  match c with GDone => True | GDo o next => writes o z = false /\ forall r, never_writes (next r) z end.

(** A variable that the program does not write keeps its value, whatever happens to the others:
    even to those it was copied from, or that were copied from it. *)
Theorem C46_independent {E : Env} (K : Cls E) (M X : Type)
    (sem : M -> ty -> c_val K -> X + exn -> c_val K -> Prop) (hs : nat -> header) c m rs m' z :
  gexec K M X sem hs c m rs m' -> never_writes c z -> m' !! z = m !! z.
Proof.
  revert m rs. induction c as [|o next IH]; intros m rs Hex Hn.
  - by destruct Hex as [_ ->].
  - destruct Hex as (r & rs' & m1 & -> & Hst & Hex), Hn as [Hw Hn]. rewrite (IH r m1 rs' Hex (Hn r)).
    destruct o; cbn in Hw, Hst; rewrite ?orb_false_iff, ?Nat.eqb_neq in Hw; destruct r as [r|e];
      repeat first [case_decide|match goal with H : _ /\ _ |- _ => destruct H | H : exists _, _ |- _ => destruct H end];
      subst; rewrite ?lookup_insert_ne, ?lookup_delete_ne by done; done.
Qed.
Print Assumptions C46_independent.

(** ** C46: which classes keep the contract *)

(** The value types without structure of the other files. *)
Theorem C46_flat {E : Env} (HC : copies_const E) : Honest (flatTP E) (flat_cls E).
Proof. exact (flat_honest HC). Qed.
Print Assumptions C46_flat.

(** A class whose members are wrappers, of any of the four headers, with the special member
    functions the compiler generates, keeps the contract if the members' value type does: its
    copies are memberwise deep copies, its moves hand over every member, its assignment is
    memberwise.  So does any tower of such classes. *)
Theorem C46_members {E : Env} (Sh : Shape E) (T : TP E) (K : Cls E) :
  Honest T K -> ShapeReq Sh -> Fixed Sh -> AllocReq E -> (forall a, a_eqb E a a = true) ->
  Honest (nodeTP_step Sh T) (node_cls Sh K).
Proof. exact (fun HO HS HF HA Hr => node_honest Sh T K HO HS HF HA Hr). Qed.
Print Assumptions C46_members.

Theorem C46_towers {E : Env} (Sh : Shape E) (T : TP E) (K : Cls E) n :
  Honest T K -> ShapeReq Sh -> Fixed Sh -> AllocReq E -> (forall a, a_eqb E a a = true) ->
  Honest (towerTP Sh T n) (tower_cls Sh K n).
Proof. intros HO HS HF HA Hr. by apply tower_honest. Qed.
Print Assumptions C46_towers.

(** A class without a move constructor. *)
Theorem C46_copy_only {E : Env} (T : TP E) (K : Cls E) : Honest T K -> Honest (copy_onlyTP T) (copy_only_cls K).
Proof. exact (copy_only_honest T K). Qed.
Print Assumptions C46_copy_only.

(** A class with a hand-written constructor and copy-and-swap assignment: its assignment has
    the strong exception guarantee although the wrapper's own assignment need not. *)
Theorem C46_handle {E : Env} (T : TP E) (K : Cls E) (HO : Honest T K) h0 t0 :
  AllocReq E -> (forall a, a_eqb E a a = true) -> pocs E = true -> Honest (handleTP h0 t0 T) (handle_cls h0 t0 K).
Proof. intros HA Hr Hp. by apply handle_honest. Qed.
Print Assumptions C46_handle.

(** ** Examples: the hypotheses can be met *)

(** [handle] over a copy-only class, with a member function that returns the data and
    increments it.  Allocators propagate on swap. *)
Definition exG : flags := Fl false false true false true false.
Notation EG := (exEnv exG).
Definition ex_user (h0 : header) : TP EG := handleTP h0 0 (copy_onlyTP (flatTP EG)).
Definition ex_user_cls (h0 : header) : Cls EG := handle_cls h0 0 (copy_only_cls (flat_cls EG)).
Definition ex_code (_ : unit) (l : loc) : prog EG nat :=
  bind (act (PReadObj (E := EG) (RBlk l))) (fun o => bind (act (PMutObj (E := EG) (RBlk l) S)) (fun _ => Ret o.2)).
Definition ex_sem h0 (_ : unit) (_ : ty) (x : c_val (ex_user_cls h0)) (r : nat + exn) (x' : c_val (ex_user_cls h0)) : Prop :=
  r = inl x.1 /\ x' = (S x.1, x.2).

Lemma exG_refl a : a_eqb EG a a = true.
Proof. apply Nat.eqb_refl. Qed.
Example C46_ex_honest h0 : Honest (ex_user h0) (ex_user_cls h0).
Proof.
  apply C46_handle; [|apply ex_alloc|apply exG_refl|done]. apply C46_copy_only, C46_flat. by intros t a v.
Qed.
(** ... and a class with two members of such a type. *)
Example C46_ex_members h h0 : Honest (nodeTP_step (exShape exG h) (ex_user h0)) (node_cls (exShape exG h) (ex_user_cls h0)).
Proof. apply C46_members; [apply C46_ex_honest|apply exShape_req|apply exShape_fixed|apply ex_alloc|apply exG_refl]. Qed.

Example C46_ex_method h0 u : Method (ex_user_cls h0) (ex_code u) (ex_sem h0 u).
Proof.
  intros t l b x B W s HM [(v & Ho & Hrep) Hb HB HW] _. unfold ex_code. rewrite run_bind.
  cbn [act run exec deref]. rewrite Hb, Ho. cbn [run]. rewrite run_bind. cbn [act run exec deref]. rewrite Hb, Ho. cbn [run snd].
  destruct Hrep as (Hv & Hlen & Hl & Hm).
  exists (S x.1, x.2), (set_obj (OLive (E := EG) t (S v)) b), B, W. split; [by subst v|]. split.
  - exists (S v). split; [done|]. split; [by cbn; rewrite Hv|]. done.
  - split; cbn [upd_ref set_blocks blocks wraps exts]; [| |done| |].
    + rewrite (alter_put _ _ l b) by done. rewrite Ho. clear - HB Hl. map_solve.
    + clear - HW. map_solve.
    + clear. map_solve.
    + clear. map_solve.
Qed.

(** A program: make [x0], copy it to [x1], call the member function of [x0], assign [x0] to [x1],
    swap, destroy. *)
Definition ex_client : gclient (E := EG) unit nat :=
  GDo (GMake (E := EG) 0 1 0 5) (fun r => match r with inr _ => GDone | inl _ =>
  GDo (GCopy 1 0) (fun r => match r with inr _ => GDo (GDestroy 0) (fun _ => GDone) | inl _ =>
  GDo (GCall 0 tt) (fun _ =>
  GDo (GCall 1 tt) (fun _ =>
  GDo (GAssign 1 0) (fun _ =>
  GDo (GSwap 0 1) (fun _ =>
  GDo (GDestroy 0) (fun _ =>
  GDo (GDestroy 1) (fun _ => GDone))))))end)end).

Example C46_ex_safe h h0 : gsafe (ex_user_cls h0) unit nat (ex_sem h0) (fun _ => h) ex_client ∅.
Proof.
  cbn [gsafe ex_client]. split.
  { split; [done|]. exists (5, [(Some (0, 5), 1)]). split; [by destruct h|]. exists 5. by destruct h0. }
  intros [r|e] m Hm; [|done]. destruct Hm as (_ & v & Hv & ->). cbn [gsafe]. split.
  { split; [done|]. split; [done|]. rewrite lookup_insert. by eexists. }
  intros [r2|e2] m Hm.
  2:{ cbn in Hm. subst. cbn [gsafe]. split; [cbn; rewrite lookup_insert; by eexists|done]. }
  destruct Hm as (_ & k & k' & Hk & Hc & ->). rewrite lookup_insert in Hk. simplify_eq.
  unfold copied in Hc. cbn [fst snd] in Hc. destruct Hc as (x' & Hx' & ->). cbn [gsafe]. split.
  { eexists _, _, _. rewrite lookup_insert_ne, lookup_insert by done. done. }
  intros r3 m (t3 & v3 & a3 & v3' & r3' & H3 & _ & _ & ->). rewrite lookup_insert_ne, lookup_insert in H3 by done. simplify_eq. split.
  { eexists _, _, _. rewrite lookup_insert_ne, lookup_insert by done. done. }
  intros r4 m (t4 & v4 & a4 & v4' & r4' & H4 & _ & _ & ->). rewrite lookup_insert_ne, lookup_insert in H4 by done. simplify_eq. split.
  { split; [done|]. cbn. by split; eexists. }
  intros r5 m (kx & ky & H1 & H2 & H5).
  assert (exists k1 k2, m !! 0 = Some k1 /\ m !! 1 = Some k2) as (k1 & k2 & Hk1 & Hk2).
  { rewrite lookup_insert_ne, lookup_insert in H2 by done.
    destruct r5 as [r5|e5]; [destruct H5 as (_ & k5 & _ & ->)|destruct H5 as (k5 & _ & ->)];
      eexists _, _; split; [by rewrite lookup_insert_ne, lookup_insert_ne, lookup_insert|by rewrite lookup_insert| |];
      [by rewrite lookup_insert_ne, lookup_insert_ne, lookup_insert|by rewrite lookup_insert]. }
  split; [split; [done|]; exists k1, k2; done|].
  intros r6 m6 (_ & kx6 & ky6 & kx6' & ky6' & _ & _ & _ & ->). split; [cbn; rewrite lookup_insert; by eexists|].
  intros r7 m7 (_ & ->). split; [|done]. cbn. rewrite lookup_delete_ne, lookup_insert_ne, lookup_insert by done. by eexists.
Qed.

(** What the programs print: no block is left. *)
Definition ex_run (h h0 : header) (O : list resp) : option (list (gres (E := EG) nat + exn) * list loc) :=
  match run (gprog (ex_user h0) unit nat ex_code (fun _ => h) ex_client) (mkS ∅ ∅ ∅ O []) with
  | ORet rs s' => Some (rs, (map_to_list (blocks s')).*1)
  | _ => None
  end.
Example C46_ex_run :
  map (fun '(h, h0) => ex_run h h0 []) [(HInd20, HPoly14); (HInd14, HInd20); (HPoly20, HInd14); (HPoly14, HPoly20)] =
  replicate 4 (Some ([inl RUnit; inl RUnit; inl (RX 5); inl (RX 5); inl RUnit; inl RUnit; inl RUnit; inl RUnit], [])).
Proof. by vm_compute. Qed.

(** The contract is needed: copying a wrapper whose value type "copies" by moving changes the
    source. *)
Theorem C46_contract_needed : exists (T : TP EG) (s : store EG),
  match run (i_copy (hdr_impl HInd20 T) (WVar 1) (WVar 0)) s with
  | ORet _ s' => wraps s' !! WVar 0 = Some (mkW (E := EG) (PLoc 0) 1) /\
      b_obj <$> (blocks s !! 0) = Some (OLive (E := EG) 0 5) /\ b_obj <$> (blocks s' !! 0) = Some (OLive (E := EG) 0 0)
  | _ => False
  end.
Proof.
  pose (s := mkS {[ 0 := mkB (E := EG) 1 (kbty Ind 0) (khdr Ind 0 0) (OLive (E := EG) 0 5) ]}
                 {[ WVar 0 := mkW (E := EG) (PLoc 0) 1 ]} ∅ [] [] : store EG).
  pose (r := run (i_copy (hdr_impl HInd20 (auto_ptrTP (flatTP EG))) (WVar 1) (WVar 0)) s).
  assert (H : match r with
    | ORet _ s' => Some (wraps s' !! WVar 0, b_obj <$> (blocks s !! 0), b_obj <$> (blocks s' !! 0)) | _ => None end =
    Some (Some (mkW (E := EG) (PLoc 0) 1), Some (OLive (E := EG) 0 5), Some (OLive (E := EG) 0 0))) by (by vm_compute).
  exists (auto_ptrTP (flatTP EG)), s. fold r. clearbody r. destruct r as [u s'| | |]; try done.
  apply Some_inj, pair_equal_spec in H as [H H3]. by apply pair_equal_spec in H as [H1 H2].
Qed.
Print Assumptions C46_contract_needed.
