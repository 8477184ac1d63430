(** * Memory resources: the theorems.

    [a_res a] is the memory resource behind the allocator [a]; a block of memory is returned to the
    allocator it came from ([b_a]), so a resource may be released only when no block of it is in
    use.  [held], [gsafe], [gexec]: programs over any value type under the contract [Honest]
    (ContractClient.v, C46). *)

From stdpp Require Import base gmap list sorting.
From Verif Require Import Lang Common Client Spec Rep RunLemmas Headers Hist Tree TreeProps TreeAssign TreeEx Ex
  Contract ContractProps ContractOps ContractMove ContractNode ContractClient ContractClientProps ContractUser ContractUserProps
  Arena ArenaProps ArenaHome.

(** ** C52: the classes *)

(** A class that hands its allocator on to its wrapper members, of any of the four headers,
    keeps the contract of C46 if the members' value type does: so do towers of such classes. *)
Theorem C52_contract {E : Env} (Sh : Shape E) (s_arg : Passing E) (T : TP E) (K : Cls E) n :
  Honest T K -> ShapeReq Sh -> Fixed Sh -> AllocReq E -> (forall t i, k_hdr Sh t i = HPoly14 -> pocca E = false) ->
  Honest (scopedTP Sh s_arg T n) (scoped_tower Sh s_arg K n).
Proof. intros HO HS HF HA HP. by apply scoped_tower_honest. Qed.
Print Assumptions C52_contract.

(** ... and keeps to its resource. *)
Theorem C52_keeps {E : Env} (Sh : Shape E) (s_arg : Passing E) (K : Cls E) (R : c_val K -> nat -> Prop) n :
  Keeps K R -> AllocReq E -> (forall t i, k_hdr Sh t i = HPoly14 -> pocca E = false) ->
  Keeps (scoped_tower Sh s_arg K n) (tower_res Sh s_arg K R n).
Proof. intros HK HA HP. by apply scoped_tower_keeps. Qed.
Print Assumptions C52_keeps.

(** ** C52: copies *)

(** A copy constructed with an allocator is in that allocator's resource, all of it, wherever
    the original is. *)
Theorem C52_copy {E : Env} (T : TP E) (K : Cls E) (R : c_val K -> nat -> Prop) (HO : Honest T K) (HK : Keeps K R)
    h x a y k B W (s : store E) u s' :
  mem_ok s -> home s x -> wraps s !! x = None -> wrapper_at K s h y k B W ->
  run (i_copy_a (hdr_impl h T) x a y) s = ORet u s' ->
  exists k' B' W', copied K a k k' /\ wrapped K h x k' B' W' /\ changed s s' ∅ ∅ B' W' /\
    forall l b, B' !! l = Some b -> a_res E (b_a b) = a_res E a.
Proof.
  intros HM Hh Hx Hy Hrun. assert (G := copya_g T K HO h x a y k B W s HM Hh Hx Hy). rewrite Hrun in G.
  destruct G as (k' & B' & W' & Hc & Hw & Hch). exists k', B', W'. do 3 (split; [done|]).
  destruct (copied_home K R HK _ _ _ Hc) as [Ha Hk]. intros l b Hb. rewrite <- Ha. exact (wrapped_home K R HK _ _ _ _ _ Hw Hk l b Hb).
Qed.
Print Assumptions C52_copy.

(** ** C52: programs *)

(** In any program over a value type that keeps to its resource (its further member functions
    as well), every block a variable owns, however deeply nested, is from the resource of the
    variable's allocator. *)
Theorem C52_programs {E : Env} (T : TP E) (K : Cls E) (R : c_val K -> nat -> Prop) (HO : Honest T K) (HK : Keeps K R)
    (HA : AllocReq E) (Hrefl : forall a, a_eqb E a a = true)
    (M X : Type) (code : M -> loc -> prog E X) (sem : M -> ty -> c_val K -> X + exn -> c_val K -> Prop)
    (HC : forall f, Method K (code f) (sem f)) (Hsem : forall f t v r v' q, sem f t v r v' -> R v q -> R v' q)
    (hs : nat -> header) c m (s : store E) rs s' :
  held K hs s m -> gsafe K M X sem hs c m -> (forall x k, m !! x = Some k -> at_home K R k) ->
  run (gprog T M X code hs c) s = ORet rs s' ->
  exists m' FB FW, gexec K M X sem hs c m rs m' /\ held_by K hs s' m' FB FW /\
    forall x k l b, m' !! x = Some k -> FB x !! l = Some b -> a_res E (b_a b) = a_res E k.2.
Proof.
  intros Hh Hsafe Hm Hrun. assert (G := client_run T K HO HA Hrefl M X code sem HC hs c m s Hh Hsafe).
  rewrite Hrun in G. destruct G as (m' & Hex & FB & FW & Hby). exists m', FB, FW. do 2 (split; [done|]).
  assert (Hm' := gexec_home K R HK HA M X sem Hsem hs c m rs m' Hsafe Hex Hm). intros x k l b Hx Hb.
  assert (P := hd_part _ _ _ _ _ _ Hby x). rewrite Hx in P. exact (wrapped_home K R HK _ _ _ _ _ P (Hm' _ _ Hx) l b Hb).
Qed.
Print Assumptions C52_programs.

(** So when no variable's allocator uses the resource [r], no memory of [r] is in use: it may
    be released. *)
Theorem C52_release {E : Env} (T : TP E) (K : Cls E) (R : c_val K -> nat -> Prop) (HO : Honest T K) (HK : Keeps K R)
    (HA : AllocReq E) (Hrefl : forall a, a_eqb E a a = true)
    (M X : Type) (code : M -> loc -> prog E X) (sem : M -> ty -> c_val K -> X + exn -> c_val K -> Prop)
    (HC : forall f, Method K (code f) (sem f)) (Hsem : forall f t v r v' q, sem f t v r v' -> R v q -> R v' q)
    (hs : nat -> header) c (s : store E) rs s' r :
  blocks s = ∅ -> wraps s = ∅ -> gsafe K M X sem hs c ∅ -> run (gprog T M X code hs c) s = ORet rs s' ->
  (forall x w, wraps s' !! WVar x = Some w -> a_res E (w_a w) <> r) ->
  forall l b, blocks s' !! l = Some b -> a_res E (b_a b) <> r.
Proof.
  intros Hb Hw Hsafe Hrun Hr l b Hl.
  destruct (C52_programs T K R HO HK HA Hrefl M X code sem HC Hsem hs c ∅ s rs s') as (m' & FB & FW & Hex & Hby & Hres);
    [by apply held_empty|done|by intros x k Hx; rewrite lookup_empty in Hx|done|].
  destruct (hd_cb _ _ _ _ _ _ Hby l) as [x [b' Hx]]; [by eexists|].
  assert (b' = b) as -> by (pose proof (lookup_weaken _ _ _ _ Hx (hd_b _ _ _ _ _ _ Hby x)); congruence).
  assert (P := hd_part _ _ _ _ _ _ Hby x). destruct (m' !! x) as [k|] eqn:Hk.
  - rewrite (Hres x k l b Hk Hx). assert (Hat := held_at K hs _ _ _ _ _ _ Hby Hk).
    destruct (wr_ptr _ _ _ _ _ _ _ Hat) as (p & _ & Hs & _). exact (Hr x _ Hs).
  - destruct P as [P _]. rewrite P, lookup_empty in Hx. done.
Qed.
Print Assumptions C52_release.

(** With the traits of [std::pmr::polymorphic_allocator], for towers of such classes over
    opaque value types, in all four headers: no undefined behaviour, no termination, and the
    resource may be released. *)
Theorem C52_pmr {E : Env} (Sh : Shape E) (s_arg : Passing E) n (HE : Pmr E) (HC : copies_const E) (HS : ShapeReq Sh) (HF : Fixed Sh)
    (hs : nat -> header) c (s : store E) :
  let K := scoped_tower Sh s_arg (flat_cls E) n in
  blocks s = ∅ -> wraps s = ∅ -> gsafe K Empty_set unit (fun f => match f with end) hs c ∅ ->
  exists rs s', run (gprog (scopedTP Sh s_arg (flatTP E) n) Empty_set unit (fun f => match f with end) hs c) s = ORet rs s' /\
    forall r, (forall x w, wraps s' !! WVar x = Some w -> a_res E (w_a w) <> r) ->
      forall l b, blocks s' !! l = Some b -> a_res E (b_a b) <> r.
Proof.
  intros K Hb Hw Hsafe.
  assert (HA : AllocReq E).
  { split; [intros a b; by apply (pm_eq _ HE)|]. by rewrite (pm_ae _ HE). }
  assert (Hrefl : forall a, a_eqb E a a = true) by (intros a; by apply (pm_eq _ HE)).
  assert (HP : forall t i, k_hdr Sh t i = HPoly14 -> pocca E = false) by (intros; apply HE).
  assert (HO := C52_contract Sh s_arg (flatTP E) (flat_cls E) n (flat_honest HC) HS HF HA HP).
  assert (HK := C52_keeps Sh s_arg (flat_cls E) (fun _ _ => True) n (flat_keeps E) HA HP).
  assert (HM : forall f : Empty_set, Method (X := unit) K (match f with end) (match f with end)) by done.
  assert (G := client_run _ K HO HA Hrefl Empty_set unit (fun f => match f with end) (fun f => match f with end) HM hs c ∅ s
    (proj2 (held_empty K hs s) (conj Hb Hw)) Hsafe).
  destruct (run _ s) as [rs s'| | |] eqn:Hrun; [|done|done|].
  - exists rs, s'. split; [done|]. intros r. by eapply (C52_release _ K _ HO HK HA Hrefl _ _ _ _ HM).
  - exfalso. assert (Ht : forall c m, gterm K Empty_set unit (fun f => match f with end) hs c m -> False); [|by eapply Ht].
    clear -HE. induction c as [|o next IH]; intros m H; [done|]. destruct H as [H|(r & m' & _ & H)]; [|by eapply IH].
    destruct o; try done. destruct H as (_ & H & _). by rewrite (pm_pocma _ HE) in H.
Qed.
Print Assumptions C52_pmr.

(** ** Handing on the allocator is needed *)

(** [handle] of C46 keeps the contract but its constructors do not hand on the allocator of the
    new object.  A value made with the allocator 1, moved to a wrapper with the allocator 2:
    the member still owns memory of resource 1 when no variable uses it. *)
Definition exG2 : flags := Fl false false true false true false.
Notation E2 := (exEnv exG2).
Definition ex_flatTP (h : header) : TP E2 := handleTP h 0 (flatTP E2).
Definition ex_flat_cls (h : header) : Cls E2 := handle_cls h 0 (flat_cls E2).
Definition ex_moves : gclient (E := E2) Empty_set unit :=
  GDo (GMake (E := E2) 0 1 0 5) (fun r => match r with inr _ => GDone | inl _ =>
  GDo (GMoveA (E := E2) 1 2 0) (fun r => match r with inr _ => GDone | inl _ =>
  GDo (GDestroy 0) (fun _ => GDone) end) end).
(** Some block is from resource 1, the allocators of all variables are 2. *)
Definition ex_stale {Y} (o : outcome E2 Y) : bool :=
  match o with
  | ORet _ s' => existsb (fun lb : loc * block E2 => Nat.eqb (b_a lb.2) 1) (map_to_list (blocks s')) &&
      forallb (fun xw : wl * wrapper E2 => match xw.1 with WVar _ => Nat.eqb (w_a xw.2) 2 | _ => true end) (map_to_list (wraps s'))
  | _ => false
  end.

Theorem C52_release_refuted h : exists (c : gclient (E := E2) Empty_set unit) (s : store E2),
  Honest (ex_flatTP h) (ex_flat_cls h) /\ blocks s = ∅ /\ wraps s = ∅ /\
  gsafe (ex_flat_cls h) Empty_set unit (fun f => match f with end) (fun _ => h) c ∅ /\
  exists rs s', run (gprog (ex_flatTP h) Empty_set unit (fun f => match f with end) (fun _ => h) c) s = ORet rs s' /\
    (forall x w, wraps s' !! WVar x = Some w -> a_res E2 (w_a w) <> 1) /\
    exists l b, blocks s' !! l = Some b /\ a_res E2 (b_a b) = 1.
Proof.
  exists ex_moves, (mkS ∅ ∅ ∅ [] []). split.
  { apply handle_honest; [apply ex_alloc|intros a; apply ex_refl|apply flat_honest; by intros t a v|done]. }
  do 2 (split; [done|]). split.
  { cbn [gsafe ex_moves]. split.
    { split; [done|]. exists (5, [(Some (0, 5), 1)]). split; [by destruct h|]. exists 5. by destruct h. }
    intros [r|e] m Hm; [|done]. destruct Hm as (_ & v & Hv & ->). cbn [gsafe]. split.
    { split; [done|]. split; [done|]. eexists. rewrite lookup_insert. split; [done|]. by destruct h. }
    intros [r2|e2] m (k & Hk & Hm); [|done]. destruct Hm as (_ & k' & ky & Hmv & ->). cbn [gsafe]. split; [|done].
    cbn. rewrite lookup_insert_ne, lookup_insert by done. by eexists. }
  set (o := run _ _). assert (H : ex_stale o = true) by (subst o; destruct h; by vm_compute).
  clearbody o. destruct o as [rs s'| | |]; try done. exists rs, s'. split; [done|].
  cbn [ex_stale] in H. apply andb_prop in H as [H1 H2]. split.
  - intros x w Hx Hr. apply elem_of_map_to_list, elem_of_list_In in Hx. rewrite forallb_forall in H2.
    specialize (H2 _ Hx). cbn in H2, Hr. apply Nat.eqb_eq in H2. congruence.
  - apply existsb_exists in H1 as ([l b] & Hl & Hb). apply elem_of_list_In, elem_of_map_to_list in Hl.
    exists l, b. split; [done|]. cbn in Hb |- *. by apply Nat.eqb_eq.
Qed.
Print Assumptions C52_release_refuted.

(** ** Examples: the hypotheses can be met *)

(** Allocators with the traits of [std::pmr::polymorphic_allocator]; classes with two members
    of the header [h], given the data of the object plus their number; two levels of them over
    numbers. *)
Definition exP : flags := Fl false false false false true false.
Notation EP := (exEnv exP).
Example C52_ex_pmr : Pmr EP.
Proof. split; try done. intros a b. apply Nat.eqb_eq. Qed.
Definition ex_pass : Passing EP := fun _ c i => (0, c + i).
Definition ex_tree (h : header) : TP EP := scopedTP (exShape exP h) ex_pass (flatTP EP) 2.
Definition ex_tree_cls (h : header) : Cls EP := scoped_tower (exShape exP h) ex_pass (flat_cls EP) 2.

(** Make [x0] in resource 1, copy it to [x1] in resource 2, assign, move [x0] to [x2] in
    resource 3, destroy [x0]: nothing is left in resource 1. *)
Definition ex_arena : gclient (E := EP) Empty_set unit :=
  GDo (GMake (E := EP) 0 1 0 5) (fun r => match r with inr _ => GDone | inl _ =>
  GDo (GCopyA (E := EP) 1 2 0) (fun r => match r with inr _ => GDo (GDestroy 0) (fun _ => GDone) | inl _ =>
  GDo (GAssign 1 0) (fun _ =>
  GDo (GMoveA (E := EP) 2 3 0) (fun _ =>
  GDo (GDestroy 0) (fun _ => GDone))) end) end).

Example C52_ex_make h : c_make (ex_tree_cls h) (made (E := EP) h 0) 1 5
  (5, [(Some (0, (5, [(Some (0, 5), 1); (Some (0, 6), 1)])), 1); (Some (0, (6, [(Some (0, 6), 1); (Some (0, 7), 1)])), 1)]).
Proof. destruct h; cbn; repeat (first [done | split | eexists | progress cbn]). all: repeat (first [done | split | eexists | progress cbn]). Qed.

Example C52_ex_safe h : gsafe (ex_tree_cls h) Empty_set unit (fun f => match f with end) (fun _ => h) ex_arena ∅.
Proof.
  cbn [gsafe ex_arena]. split; [split; [done|eexists; apply C52_ex_make]|].
  intros [r|e] m Hm; [|done]. destruct Hm as (_ & v & Hv & ->). cbn [gsafe]. split.
  { split; [done|]. split; [done|]. rewrite lookup_insert. by eexists. }
  intros [r2|e2] m Hm.
  2:{ cbn in Hm. subst. cbn [gsafe]. split; [cbn; rewrite lookup_insert; by eexists|done]. }
  destruct Hm as (_ & k & k' & Hk & Hc & ->). rewrite lookup_insert in Hk. simplify_eq. cbn [gsafe]. split.
  { split; [done|]. cbn. by split; eexists. }
  intros r5 m (kx & ky & H1 & H2 & H5).
  assert (exists k1, m = <[1 := k1]> (<[0 := (Some (made (E := EP) h 0, v), 1)]> ∅)) as (k1 & ->).
  { destruct r5 as [r5|e5]; [destruct H5 as (_ & k5 & _ & ->)|destruct H5 as (k5 & _ & ->)]; exists k5; rewrite insert_insert; reflexivity. }
  split.
  { split; [done|]. split; [done|]. exists (Some (made (E := EP) h 0, v), 1). split; [by rewrite lookup_insert_ne, lookup_insert|]. by destruct h. }
  intros r6 m (k6 & H6 & Hm). split; [|done]. cbn.
  destruct r6; [destruct Hm as (_ & k6' & ky6 & _ & ->)|destruct Hm as (_ & ky6 & _ & ->)].
  - rewrite lookup_insert_ne, lookup_insert by done. by eexists.
  - rewrite lookup_insert. by eexists.
Qed.

(** The resources of the blocks in use in the end. *)
Definition ex_res (h : header) (O : list resp) : option (list nat) :=
  match run (gprog (ex_tree h) Empty_set unit (fun f => match f with end) (fun _ => h) ex_arena) (mkS ∅ ∅ ∅ O []) with
  | ORet rs s' => Some ((fun lb : loc * block EP => a_res EP (b_a lb.2)) <$> map_to_list (blocks s'))
  | _ => None
  end.
Example C52_ex_run : map (fun h => merge_sort le <$> ex_res h []) [HInd20; HInd14; HPoly20; HPoly14] =
  replicate 4 (Some (replicate 7 2 ++ replicate 7 3)).
Proof. by vm_compute. Qed.
