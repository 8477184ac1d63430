(** * Threads over any value type that keeps its contract: the theorems.

    The variables are wrappers of any of the four headers, owning values of any class that is
    [Shareable]: it keeps its contract, and const means const (ContractConc.v).  The threads
    run arbitrary programs over the variables, each modifying only its own ([o x = Some i]); the
    shared ones ([o x = None]) are copied, observed, and have their const member functions
    called.  [gclients_ok]: so they do, and they meet the operations' preconditions, by the
    specification of each thread alone.  Every schedule and every behaviour of the environment. *)

From stdpp Require Import base gmap list relations.
From Verif Require Import Lang Common Client Spec Rep RunLemmas Headers Hist Draft Tree TreeProps TreeAssign TreeEx Ex Conc ConcStatic ConcExec ConcProps.
From Verif Require Import Contract ContractProps ContractClient ContractClientProps ContractUser ContractUserProps ContractTidy ContractTidyProps PropsContract.
From Verif Require Import ConcPar ContractConc ContractConcProps ContractConcJoin ContractConcUser Arena ContractConcScoped.

(** ** C47 *)
Section threads.
Context {E : Env} (T : TP E) (K : Cls E) (HS : Shareable T K).
Context (HA : AllocReq E) (HCR : CopyReq E) (Hrefl : forall a, a_eqb E a a = true).
Context (M X : Type) (code : M -> loc -> prog E X) (sem : M -> ty -> c_val K -> X + exn -> c_val K -> Prop).
Context (const : M -> bool).
Context (HM : forall f, Method K (code f) (sem f)) (HMT : forall f, MethodT K (const f) (code f) (sem f)).
Context (hs : nat -> header) (o : nat -> option nat).
Implicit Types C : config E (list (gres (E := E) X + exn)).

(** No data race, and nothing undefined. *)
Theorem C47_no_race s m cs C :
  held K hs s m -> gclients_ok K M X sem const hs o m cs -> csteps (gstart T M X code hs s cs) C ->
  ~ race C /\ ~ undefined C.
Proof.
  intros (FB & FW & Hh) Hc Hs. destruct HS as [S1 S2 S3 S4].
  destruct (steps_inv HCR _ _ _ _ _ _ _ _ (gstart_inv T K S1 S2 S3 S4 HA HCR Hrefl M X code sem const HM HMT hs o s m FB FW Hh cs Hc) Hs) as [L HL].
  split; [by eapply inv_no_race|by eapply inv_no_undefined].
Qed.

(** What a thread that has finished saw is what its program alone may see, by the
    specification, of the variables it can see. *)
Theorem C47_results s m cs C i rs tr :
  held K hs s m -> gclients_ok K M X sem const hs o m cs -> csteps (gstart T M X code hs s cs) C ->
  c_threads C !! i = Some (Ret rs, tr) ->
  exists c m', cs !! i = Some c /\ gexec K M X sem hs c (view_of K o i m) rs m' /\
    forall x, o x = None -> m' !! x = m !! x.
Proof.
  intros (FB & FW & Hh) Hc Hs Hi. destruct HS as [S1 S2 S3 S4].
  destruct (steps_inv HCR _ _ _ _ _ _ _ _ (gstart_inv T K S1 S2 S3 S4 HA HCR Hrefl M X code sem const HM HMT hs o s m FB FW Hh cs Hc) Hs) as [L HL].
  destruct (thread_done T K S1 S2 S3 S4 HA HCR Hrefl M X code sem const HM HMT hs o s m FB FW Hh cs Hc C L i rs tr HL Hi)
    as (c & m' & H1 & H2 & FB' & FW' & _ & H3).
  exists c, m'. split; [done|]. split; [done|]. intros x Hx. destruct (H3 x) as (_ & _ & ->); [congruence|].
  unfold view_of. rewrite map_filter_lookup. destruct (m !! x); [|done]. cbn. rewrite option_guard_True by by left. done.
Qed.

(** A thread does not throw out of its program. *)
Theorem C47_no_escape s m cs C i e tr :
  held K hs s m -> gclients_ok K M X sem const hs o m cs -> csteps (gstart T M X code hs s cs) C ->
  c_threads C !! i <> Some (Throw e, tr).
Proof.
  intros (FB & FW & Hh) Hc Hs Hi. destruct HS as [S1 S2 S3 S4].
  destruct (steps_inv HCR _ _ _ _ _ _ _ _ (gstart_inv T K S1 S2 S3 S4 HA HCR Hrefl M X code sem const HM HMT hs o s m FB FW Hh cs Hc) Hs) as [L HL].
  destruct (ti_hist _ _ _ _ _ _ _ _ _ _ (ci_thread _ _ _ _ _ _ _ HL _ _ _ Hi)) as (p & u & Hp & Hu). specialize (Hu []).
  rewrite app_nil_r in Hu. rewrite list_lookup_fmap in Hp. destruct (cs !! i) as [c|] eqn:Hci; [|done]. cbn in Hp. simplify_eq.
  pose proof (client_since T K S1 S2 S3 S4 HA HCR Hrefl M X code sem const HM HMT hs o i c (view_of K o i m) (set_orc u (seen_by K o s m FB FW i))
    _ _ (held_by_orc K hs u _ _ _ _ (seen_held T K S1 hs o s m FB FW Hh i)) (Hc i c Hci)) as G. by rewrite Hu in G.
Qed.

(** At any time the shared variables, with everything they own, are as they were. *)
Theorem C47_shared_unchanged s m cs C :
  held K hs s m -> gclients_ok K M X sem const hs o m cs -> csteps (gstart T M X code hs s cs) C ->
  forall x k, o x = None -> m !! x = Some k ->
    exists B W, wrapper_at K s (hs x) (WVar x) k B W /\ wrapper_at K (whole C) (hs x) (WVar x) k B W.
Proof.
  intros (FB & FW & Hh) Hc Hs x k Hx Hk. destruct HS as [S1 S2 S3 S4].
  destruct (steps_inv HCR _ _ _ _ _ _ _ _ (gstart_inv T K S1 S2 S3 S4 HA HCR Hrefl M X code sem const HM HMT hs o s m FB FW Hh cs Hc) Hs) as [L HL].
  pose proof (held_at K hs _ _ _ _ _ _ Hh Hk) as Ha. exists (FB x), (FW x). split; [done|]. split; [apply Ha| |].
  - apply map_subseteq_spec. intros l b Hb. cbn. rewrite (ci_b _ _ _ _ _ _ _ HL); [eapply lookup_weaken; [done|apply Hh]|].
    apply (shared_spec T K S1 hs o s m FB FW Hh). eauto.
  - apply map_subseteq_spec. intros w q Hq. cbn. pose proof (lookup_weaken _ _ _ _ Hq (hd_w _ _ _ _ _ _ Hh x)) as Hqs.
    destruct (part_dom T K S1 hs _ _ _ _ (hd_part _ _ _ _ _ _ Hh x) w) as [->|(l & j & -> & Hl)]; [by eexists| |].
    + by rewrite (ci_w _ _ _ _ _ _ _ HL).
    + rewrite (ci_wm _ _ _ _ _ _ _ HL); [done|]. apply (shared_spec T K S1 hs o s m FB FW Hh). eauto.
Qed.

(** When all threads are done, memory holds exactly the variables, nothing has leaked, and
    every variable has the value its thread's program alone may leave it with. *)
Theorem C47_join s m cs C :
  held K hs s m -> gclients_ok K M X sem const hs o m cs -> (forall x i, o x = Some i -> i < length cs) ->
  csteps (gstart T M X code hs s cs) C -> all_done C ->
  exists m' (ms : nat -> gmap nat (option (ty * c_val K) * eA E)),
    held K hs (whole C) m' /\
    (forall x, m' !! x = match o x with None => m !! x | Some i => ms i !! x end) /\
    forall i c, cs !! i = Some c ->
      exists rs tr, c_threads C !! i = Some (Ret rs, tr) /\ gexec K M X sem hs c (view_of K o i m) rs (ms i).
Proof.
  intros (FB & FW & Hh) Hc Ho Hs Hd. destruct HS as [S1 S2 S3 S4].
  destruct (steps_inv HCR _ _ _ _ _ _ _ _ (gstart_inv T K S1 S2 S3 S4 HA HCR Hrefl M X code sem const HM HMT hs o s m FB FW Hh cs Hc) Hs) as [L HL].
  exact (join_held T K S1 S2 S3 S4 HA HCR Hrefl M X code sem const HM HMT hs o s m FB FW Hh cs Hc C L HL Hd Ho).
Qed.
End threads.
Print Assumptions C47_no_race.
Print Assumptions C47_results.
Print Assumptions C47_no_escape.
Print Assumptions C47_shared_unchanged.
Print Assumptions C47_join.

(** ** Classes whose objects may be shared *)

(** Classes without wrappers inside. *)
Theorem C47_flat {E : Env} : copies_const E -> Shareable (flatTP E) (flat_cls E).
Proof. exact flat_shareable. Qed.
Print Assumptions C47_flat.

(** Classes with wrappers of any of the four headers as members, to any depth. *)
Theorem C47_towers {E : Env} (Sh : Shape E) (T : TP E) (K : Cls E) n :
  ShapeReq Sh -> Fixed Sh -> (forall c, k_args Sh c = []) -> AllocReq E -> (forall a, a_eqb E a a = true) ->
  Shareable T K -> Shareable (towerTP Sh T n) (tower_cls Sh K n).
Proof. exact (tower_shareable Sh T K n). Qed.
Print Assumptions C47_towers.

(** Classes without a move constructor. *)
Theorem C47_copy_only {E : Env} (T : TP E) (K : Cls E) : Shareable T K -> Shareable (copy_onlyTP T) (copy_only_cls K).
Proof. exact (copy_only_shareable T K). Qed.
Print Assumptions C47_copy_only.

(** A class with a hand-written constructor and copy-and-swap assignment. *)
Theorem C47_handle {E : Env} (T : TP E) (K : Cls E) h0 t0 :
  AllocReq E -> (forall a, a_eqb E a a = true) -> pocs E = true ->
  Shareable T K -> Shareable (handleTP h0 t0 T) (handle_cls h0 t0 K).
Proof. exact (handle_shareable T K h0 t0). Qed.
Print Assumptions C47_handle.

(** Classes that construct their members, with the allocator of the wrapper that owns them
    (Arena.v), to any depth. *)
Theorem C47_scoped {E : Env} (Sh : Shape E) (s_arg : Passing E) (T : TP E) (K : Cls E) n :
  ShapeReq Sh -> Fixed Sh -> AllocReq E -> (forall a, a_eqb E a a = true) -> (forall t i, k_hdr Sh t i = HPoly14 -> pocca E = false) ->
  Shareable T K -> Shareable (scopedTP Sh s_arg T n) (scoped_tower Sh s_arg K n).
Proof. intros HS HF HA Hr HP. by apply scoped_tower_shareable. Qed.
Print Assumptions C47_scoped.

(** ** Examples: the hypotheses can be met *)

(** The class [handle] of PropsContract.v, with a const member function that returns the data
    ([true]) and one that increments it ([false]). *)
Definition tcode (f : bool) (l : loc) : prog EG nat :=
  if f then bind (act (PReadObj (E := EG) (RBlk l))) (fun q => Ret q.2) else ex_code tt l.
Definition tsem h0 (f : bool) (t : ty) (x : c_val (ex_user_cls h0)) (r : nat + exn) (x' : c_val (ex_user_cls h0)) : Prop :=
  if f then r = inl x.1 /\ x' = x else ex_sem h0 tt t x r x'.

Example C47_ex_shareable h0 : Shareable (ex_user h0) (ex_user_cls h0).
Proof. apply C47_handle; [apply ex_alloc|apply exG_refl|done|]. apply C47_copy_only, C47_flat. by intros t a v. Qed.
(** ... and a class with two members of such a type, to any depth. *)
Example C47_ex_towers h h0 n : Shareable (towerTP (exShape exG h) (ex_user h0) n) (tower_cls (exShape exG h) (ex_user_cls h0) n).
Proof. apply C47_towers; [apply exShape_req|apply exShape_fixed|done|apply ex_alloc|apply exG_refl|apply C47_ex_shareable]. Qed.

(** ... and one that makes its members, over any argument passing. *)
Example C47_ex_scoped h h0 p n : Shareable (scopedTP (exShape exG h) p (ex_user h0) n) (scoped_tower (exShape exG h) p (ex_user_cls h0) n).
Proof. apply C47_scoped; [apply exShape_req|apply exShape_fixed|apply ex_alloc|apply exG_refl|done|apply C47_ex_shareable]. Qed.

Lemma same_changed {E : Env} (s : store E) B W : B ⊆ blocks s -> W ⊆ wraps s -> changed s s B W B W.
Proof.
  intros HB HW. split; [| |done| |].
  - by rewrite map_difference_union.
  - by rewrite map_difference_union.
  - by apply map_disjoint_difference_r.
  - by apply map_disjoint_difference_r.
Qed.
Example C47_ex_method h0 f : Method (ex_user_cls h0) (tcode f) (tsem h0 f).
Proof.
  destruct f; [|exact (C46_ex_method h0 tt)].
  intros t l b x B W s HM [(v & Ho & Hrep) Hb HB HW] _. unfold tcode. rewrite run_bind. cbn [act run exec deref]. rewrite Hb, Ho. cbn [run snd].
  pose proof Hrep as (Hv & _ & Hl & _). exists x, b, B, W. split; [by subst v|]. split.
  - exists v. split; [|done]. destruct b; cbn in *. by subst.
  - apply same_changed; [|done]. by apply insert_subseteq_l.
Qed.
Example C47_ex_methodT h0 f : MethodT (ex_user_cls h0) f (tcode f) (tsem h0 f).
Proof.
  split.
  - intros t l b x B W s HM [(v & Ho & Hrep) Hb HB HW] _. apply plain_tidy. destruct f; by cbn; repeat split.
  - intros rob own l Hmem Hl. destruct f; cbn [tcode].
    + eapply safe_bind; [by apply (safe_act _ _ _ _ (fun _ => True))|by intros].
    + eapply safe_bind; [by apply (safe_act _ _ _ _ (fun _ => True))|]. intros q _.
      eapply safe_bind; [apply (safe_act _ _ _ _ (fun _ => True)); [|done]; by destruct Hl|by intros].
  - intros -> t l b x B W s HM [(v & Ho & Hrep) Hb HB HW] _. unfold tcode. rewrite run_bind. cbn [act run exec deref]. rewrite Hb, Ho. cbn [run]. by repeat split.
  - intros -> t v r v' [_ ->]. done.
Qed.

(** Variable 0 is shared, variable [i+1] belongs to thread [i].  Each thread copies the shared
    value, increments its copy, looks at the shared value and destroys the copy. *)
Definition to (x : nat) : option nat := match x with 0 => None | S i => Some i end.
Definition tclient (x : nat) : gclient (E := EG) bool nat :=
  GDo (GCopy x 0) (fun r => match r with inr _ => GDone | inl _ =>
  GDo (GCall x false) (fun _ =>
  GDo (GCall 0 true) (fun _ =>
  GDo (GDestroy x) (fun _ => GDone))) end).
Definition t_init (h h0 : header) : store EG :=
  match run (i_inplace_a (hdr_impl h (ex_user h0)) (WVar 0) 1 0 (AArgs (E := EG) 5)) (mkS ∅ ∅ ∅ [] []) with
  | ORet _ s => s | _ => mkS ∅ ∅ ∅ [] [] end.

Example C47_ex_held h h0 : exists k, k.1 <> None /\ held (ex_user_cls h0) (fun _ => h) (t_init h h0) {[ 0 := k ]}.
Proof.
  assert (G := C46_programs (ex_user h0) (ex_user_cls h0) (C46_ex_honest h0) (ex_alloc exG) exG_refl bool nat tcode (tsem h0) (C47_ex_method h0)
    (fun _ => h) (GDo (GMake (E := EG) 0 1 0 5) (fun _ => GDone)) ∅ (mkS ∅ ∅ ∅ [] [])).
  assert (Hr : match run (i_inplace_a (hdr_impl h (ex_user h0)) (WVar 0) 1 0 (AArgs (E := EG) 5)) (mkS ∅ ∅ ∅ [] []) with ORet _ _ => true | _ => false end = true)
    by (by destruct h, h0; vm_compute).
  assert (H0 : held (ex_user_cls h0) (fun _ => h) (mkS (E := EG) ∅ ∅ ∅ [] []) ∅).
  { exists (fun _ => ∅), (fun _ => ∅). split; cbn; [done|done|done|intros; apply map_disjoint_empty_l|intros; apply map_disjoint_empty_l| |];
      intros l; rewrite lookup_empty; by intros [? ?]. }
  specialize (G H0). unfold t_init. cbn [gprog ginterp impl_of] in G. unfold void in G.
  rewrite run_bind, run_catch, !run_bind in G.
  destruct (run (i_inplace_a _ _ _ _ _) _) as [u s'|e s'| |]; [|done..]. clear Hr. cbn [run] in G.
  destruct G as (m' & Hex & Hh).
  { split; [|done]. split; [done|]. exists (5, [(Some (0, 5), 1)]). split; [by destruct h|]. exists 5. by destruct h0. }
  destruct Hex as (r & rs & m1 & Hr & Hst & [-> ->]). simplify_eq. destruct Hst as (_ & v & _ & ->).
  eexists. split; [|exact Hh]. done.
Qed.

Example C47_ex_clients h h0 k : k.1 <> None ->
  gclients_ok (ex_user_cls h0) bool nat (tsem h0) (fun f => f) (fun _ => h) to {[ 0 := k ]} [tclient 1; tclient 2].
Proof.
  intros Hk. destruct k as [[[t v]|] a]; [|done]. clear Hk.
  assert (Hc : forall i m, m !! 0 = Some (Some (t, v), a) -> m !! S i = None ->
    gok (ex_user_cls h0) bool nat (tsem h0) (fun f => f) (fun _ => h) to i (tclient (S i)) m).
  { intros i m Hm0 Hmi. cbn [gok tclient]. split; [split; [done|]; split; [done|]; by eexists|]. split; [split; [done|by left]|].
    intros [r|e] m1 Hst; [|done]. destruct Hst as (_ & k & k' & Hk & Hc & ->). simplify_eq.
    unfold copied in Hc. cbn [fst snd] in Hc. destruct Hc as (x' & Hx' & ->). cbn [gok]. split.
    { eexists _, _, _. by rewrite lookup_insert. }
    split; [by left|].
    intros r2 m2 (t2 & v2 & a2 & v2' & r2' & H2 & _ & _ & ->). rewrite lookup_insert in H2. simplify_eq. split.
    { eexists _, _, _. rewrite !lookup_insert_ne by done. done. }
    split; [by right|].
    intros r3 m3 (t3 & v3 & a3 & v3' & r3' & H3 & _ & _ & ->). split; [|done].
    cbn. rewrite lookup_insert_ne, lookup_insert by done. by eexists. }
  intros [|[|i]] c Hi; [| |done]; injection Hi as <-; apply Hc; unfold view_of; by rewrite map_filter_singleton_True by by left.
Qed.

Definition tresult {E Z} (C : option (config E Z)) (i : nat) : option Z :=
  match C with Some C => match c_threads C !! i with Some (Ret z, _) => Some z | _ => None end | None => None end.
Fixpoint tsteps {E : Env} {Z} (fuel : nat) (C : config E Z) (i : nat) : nat :=
  match fuel with 0 => 0 | S fuel => match sched [i] C with Some C' => S (tsteps fuel C' i) | None => 0 end end.
Fixpoint interleave (n m : nat) : list nat :=
  match n, m with S n, S m => 0 :: 1 :: interleave n m | _, _ => replicate n 0 ++ replicate m 1 end.

(** Both threads may run to their end, step by step in turn, and see what they should. *)
Example C47_ex_runs :
  map (fun '(h, h0) =>
    let C := gstart (ex_user h0) bool nat tcode (fun _ => h) (t_init h h0) [tclient 1; tclient 2] in
    let is := interleave (tsteps 300 C 0) (tsteps 300 C 1) in
    (tresult (sched is C) 0, tresult (sched is C) 1, match sched is C with Some C' => size (c_blocks C') | None => 0 end))
    [(HInd20, HPoly14); (HInd14, HInd20); (HPoly20, HInd14); (HPoly14, HPoly20)] =
  replicate 4 (Some [inl RUnit; inl (RX 5); inl (RX 5); inl RUnit], Some [inl RUnit; inl (RX 5); inl (RX 5); inl RUnit], 2).
Proof. by vm_compute. Qed.

(** ** Const must mean const *)

(** The next action of thread [i] writes the object in block [l]. *)
Definition next_mut {E : Env} {Z} (C : config E Z) (i : nat) : option loc :=
  match c_threads C !! i with
  | Some (Act (PMutObj (RBlk l) _) _, _) => Some l
  | _ => None
  end.
Lemma next_mut_race {E : Env} {Z} (C : config E Z) i j l : i <> j -> next_mut C i = Some l -> next_mut C j = Some l -> race C.
Proof.
  unfold next_mut. intros Hij Hi Hj.
  destruct (c_threads C !! i) as [[[z1|e1|R1 p1 k1] tr1]|] eqn:H1; try done.
  destruct (c_threads C !! j) as [[[z2|e2|R2 p2 k2] tr2]|] eqn:H2; try done.
  destruct p1 as [| | | | | | | | | | | | | | | | | |[l1|] f1| | |]; try done.
  destruct p2 as [| | | | | | | | | | | | | | | | | |[l2|] f2| | |]; try done. simplify_eq.
  eexists i, j, _, _, _, _, _, _, _, _. split; [done|]. split; [done|]. split; [done|].
  exists (MBlk l). left. cbn. auto.
Qed.

(** A class may keep its contract and be tidy, and own what it points to: if its copy
    constructor writes the source (a [mutable] member), even the value it has, two threads that
    copy one shared wrapper race. *)
Definition m_init : store EG :=
  mkS {[ 0 := mkB (E := EG) 1 (kbty Ind 0) (khdr Ind 0 0) (OLive (E := EG) 0 5) ]} {[ WVar 0 := mkW (E := EG) (PLoc 0) 1 ]} ∅ [] [].
Theorem C47_const_needed :
  exists (T : TP EG) (K : Cls EG) s m cs C,
    Honest T K /\ Tidy T K /\ Sealed K /\ AllocReq EG /\ CopyReq EG /\
    held K (fun _ => HInd20) s m /\
    gclients_ok K Empty_set unit (fun f => match f with end) (fun f => match f with end) (fun _ => HInd20) to m cs /\
    csteps (gstart T Empty_set unit (fun f => match f with end) (fun _ => HInd20) s cs) C /\ race C.
Proof.
  pose (T := touchTP (flatTP EG)). pose (K := flat_cls EG).
  pose (cs := [GDo (GCopy (E := EG) (M := Empty_set) 1 0) (fun _ => GDone (X := unit)); GDo (GCopy 2 0) (fun _ => GDone)]).
  pose (C0 := gstart T Empty_set unit (fun f => match f with end) (fun _ => HInd20) m_init cs).
  pose (m := {[ 0 := (Some (0, 5), 1) ]} : gmap nat (option (ty * c_val K) * eA EG)).
  assert (Hs : match sched (interleave 6 6) C0 with Some C => next_mut C 0 = Some 0 /\ next_mut C 1 = Some 0 | None => False end).
  { vm_compute. split; reflexivity. }
  destruct (sched (interleave 6 6) C0) as [C|] eqn:HC; [|destruct Hs]. destruct Hs as [N0 N1]. apply sched_steps in HC.
  exists T, K, m_init, m, cs, C.
  assert (HCC : copies_const EG) by (by intros t a v).
  split; [by apply touch_honest, C46_flat|]. split; [apply touch_tidy, (sh_tidy _ _ (C47_flat HCC))|]. split; [apply flat_sealed|].
  split; [apply ex_alloc|]. split; [by apply ex_copy|]. split; [|split; [|split]].
  - exists (fun x => match x with 0 => blocks m_init | _ => ∅ end), (fun x => match x with 0 => wraps m_init | _ => ∅ end). split.
    + unfold part. unfold m. intros [|x]; [rewrite lookup_singleton|by rewrite lookup_singleton_ne].
      eexists 0, _, 5, ∅, ∅. cbn [m_init blocks wraps]. rewrite !insert_empty. split; [done|]. split; [done|]. split; [done|]. split; [|done].
      by repeat split.
    + intros [|x]; [done|apply map_empty_subseteq].
    + intros [|x]; [done|apply map_empty_subseteq].
    + intros [|x] [|y] Hne; try done; try apply map_disjoint_empty_l; apply map_disjoint_empty_r.
    + intros [|x] [|y] Hne; try done; try apply map_disjoint_empty_l; apply map_disjoint_empty_r.
    + intros l Hl. by exists 0.
    + intros l Hl. by exists 0.
  - intros [|[|i]] c Hi; [| |done]; injection Hi as <-; (split; [|split; [split; [done|by left]|done]]);
      (split; [done|]; split; [done|]; unfold view_of, m; rewrite map_filter_singleton_True by (by left); by eexists).
  - exact HC.
  - exact (next_mut_race C 0 1 0 ltac:(lia) N0 N1).
Qed.
Print Assumptions C47_const_needed.
