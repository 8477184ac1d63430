(** * Assignment of values to wrappers, over any value type that keeps its contract: the theorems.

    As in PropsContract.v, [T : TP E] are arbitrary special member functions and [K : Cls E] says
    what the class means.  [V : Asg K] says what its assignments from lvalues, rvalues and
    arguments mean (ContractValue.v), and [Assignable T K V] that the programs do what [V] says,
    touching only the objects they are given and what these own. *)

From stdpp Require Import base gmap list.
From Verif Require Import Lang Common Client Spec Rep RunLemmas Headers Hist Tree TreeProps TreeAssign TreeEx Ex
  Contract ContractProps ContractOps ContractMove ContractNode ContractClient ContractClientProps ContractUser ContractUserProps
  ContractValue ContractValueProps ContractValueUser ContractValueClient ContractValueClientProps.

(** ** C48: the operation *)

(** [x = *y], for an lvalue [*y] owned by a wrapper [y] of any header.  The value of [x] is
    assigned to, or is a copy if there was none ([set_copied]); [x] keeps its allocator; [y] and
    everything else are untouched.  If copying to a valueless [x] throws, [x] is still valueless;
    if assigning throws, [x] has a value the class allows ([set_copy_failed]). *)
Theorem C48_copy {E : Env} (T : TP E) (K : Cls E) (V : Asg K) (HO : Honest T K) (HV : Assignable T K V)
    h x c hy y kx v ay Bx Wx By Wy (s : store E) :
  c <> RVal -> mem_ok s -> header_cls h = Ind -> enclosedW s x Bx Wx ->
  wrapper_at K s h x kx Bx Wx -> wrapper_at K s hy y (Some (tT E, v), ay) By Wy -> Bx ##ₘ By -> Wx ##ₘ Wy ->
  match run (bind (i_star (hdr_impl hy T) y) (fun o => i_value_assign (hdr_impl h T) x (ARef c (RBlk o)))) s with
  | ORet _ s' => exists k' B' W', set_copied K V kx v k' /\ wrapped K h x k' B' W' /\ changed s s' Bx Wx B' W'
  | OThrow _ s' => exists k' B' W', set_copy_failed K V kx v k' /\ wrapped K h x k' B' W' /\ changed s s' Bx Wx B' W'
  | _ => False
  end.
Proof. exact (vsetc_g T K V HO HV h x c hy y kx v ay Bx Wx By Wy s). Qed.
Print Assumptions C48_copy.

(** [x = std::move( *y )].  Only the value moves: [y] still owns an object, which is what the
    class leaves of it, and both wrappers keep their allocators, whatever the propagation traits
    say.  The program ends only if the class says that its move assignment may end it. *)
Theorem C48_move {E : Env} (T : TP E) (K : Cls E) (V : Asg K) (HO : Honest T K) (HV : Assignable T K V)
    h x hy y kx v ay Bx Wx By Wy (s : store E) :
  mem_ok s -> header_cls h = Ind -> enclosedW s x Bx Wx -> enclosedW s y By Wy ->
  wrapper_at K s h x kx Bx Wx -> wrapper_at K s hy y (Some (tT E, v), ay) By Wy -> Bx ##ₘ By -> Wx ##ₘ Wy ->
  let done P s' := exists k' B' W' v' By' Wy', P k' v' /\ wrapped K h x k' B' W' /\ wrapped K hy y (Some (tT E, v'), ay) By' Wy' /\
    B' ##ₘ By' /\ W' ##ₘ Wy' /\ changed s s' (Bx ∪ By) (Wx ∪ Wy) (B' ∪ By') (W' ∪ Wy') in
  match run (bind (i_star (hdr_impl hy T) y) (fun o => i_value_assign (hdr_impl h T) x (ARef RVal (RBlk o)))) s with
  | ORet _ s' => done (set_moved K V kx v) s'
  | OThrow _ s' => done (set_move_failed K V kx v) s'
  | OTerm => set_terminated K V kx v
  | OUB _ => False
  end.
Proof. exact (vsetm_g T K V HO HV h x hy y kx v ay Bx Wx By Wy s). Qed.
Print Assumptions C48_move.

(** [x = c], for arguments of the class. *)
Theorem C48_args {E : Env} (T : TP E) (K : Cls E) (V : Asg K) (HO : Honest T K) (HV : Assignable T K V)
    h x c kx Bx Wx (s : store E) :
  mem_ok s -> header_cls h = Ind -> enclosedW s x Bx Wx -> wrapper_at K s h x kx Bx Wx -> (exists k', set_made K V kx c k') ->
  match run (i_value_assign (hdr_impl h T) x (AArgs c)) s with
  | ORet _ s' => exists k' B' W', set_made K V kx c k' /\ wrapped K h x k' B' W' /\ changed s s' Bx Wx B' W'
  | OThrow _ s' => exists k' B' W', set_make_failed K V kx c k' /\ wrapped K h x k' B' W' /\ changed s s' Bx Wx B' W'
  | _ => False
  end.
Proof. exact (vset_g T K V HO HV h x c kx Bx Wx s). Qed.
Print Assumptions C48_args.

(** ** C48: programs *)

(** Programs as in C46, with value assignments. *)
Theorem C48_programs {E : Env} (T : TP E) (K : Cls E) (V : Asg K) (HO : Honest T K) (HV : Assignable T K V) (HA : AllocReq E)
    (Hrefl : forall a, a_eqb E a a = true)
    (M X : Type) (code : M -> loc -> prog E X) (sem : M -> ty -> c_val K -> X + exn -> c_val K -> Prop)
    (HC : forall f, Method K (code f) (sem f)) (hs : nat -> header) c m (s : store E) :
  held K hs s m -> vsafe K V M X sem hs c m ->
  match run (vprog T M X code hs c) s with
  | ORet rs s' => exists m', vexec K V M X sem hs c m rs m' /\ held K hs s' m'
  | OTerm => vterm K V M X sem hs c m
  | _ => False
  end.
Proof. exact (vclient_run T K V HO HV HA Hrefl M X code sem HC hs c m s). Qed.
Print Assumptions C48_programs.

Theorem C48_no_leak {E : Env} (T : TP E) (K : Cls E) (V : Asg K) (HO : Honest T K) (HV : Assignable T K V) (HA : AllocReq E)
    (Hrefl : forall a, a_eqb E a a = true)
    (M X : Type) (code : M -> loc -> prog E X) (sem : M -> ty -> c_val K -> X + exn -> c_val K -> Prop)
    (HC : forall f, Method K (code f) (sem f)) (hs : nat -> header) c (s : store E) rs s' :
  blocks s = ∅ -> wraps s = ∅ -> vsafe K V M X sem hs c ∅ ->
  (forall rs m', vexec K V M X sem hs c ∅ rs m' -> m' = ∅) ->
  run (vprog T M X code hs c) s = ORet rs s' -> blocks s' = ∅ /\ wraps s' = ∅.
Proof.
  intros Hb Hw Hsafe Hend Hrun.
  assert (G := vclient_run T K V HO HV HA Hrefl M X code sem HC hs c ∅ s (proj2 (held_empty K hs s) (conj Hb Hw)) Hsafe).
  rewrite Hrun in G. destruct G as (m' & Hex & Hh). rewrite (Hend _ _ Hex) in Hh. by apply held_empty in Hh.
Qed.
Print Assumptions C48_no_leak.

(** ** C48: which classes keep the contract *)
Theorem C48_flat {E : Env} : assigns_const E -> Assignable (flatTP E) (flat_cls E) (flat_asg E).
Proof. exact flat_assignable. Qed.
Print Assumptions C48_flat.

(** A class with wrapper members: assignment from an lvalue is memberwise copy assignment, from
    an rvalue memberwise move assignment.  The members' value type need only keep the contract of
    C46. *)
Theorem C48_members {E : Env} (Sh : Shape E) (T : TP E) (K : Cls E) :
  Honest T K -> Fixed Sh -> AllocReq E -> Assignable (nodeTP_step Sh T) (node_cls Sh K) (node_asg Sh K).
Proof. exact (fun HO HF HA => node_assignable Sh T K HO HF HA). Qed.
Print Assumptions C48_members.

Theorem C48_towers {E : Env} (Sh : Shape E) (T : TP E) (K : Cls E) n :
  Honest T K -> ShapeReq Sh -> Fixed Sh -> AllocReq E -> (forall a, a_eqb E a a = true) ->
  Assignable (towerTP Sh T (S n)) (tower_cls Sh K (S n)) (node_asg Sh (tower_cls Sh K n)).
Proof. intros HO HS HF HA Hr. apply C48_members; [by apply tower_honest|done|done]. Qed.
Print Assumptions C48_towers.

Theorem C48_copy_only {E : Env} (T : TP E) (K : Cls E) (V : Asg K) :
  Assignable T K V -> Assignable (copy_onlyTP T) (copy_only_cls K) (copy_only_asg K V).
Proof. exact (copy_only_assignable T K V). Qed.
Print Assumptions C48_copy_only.

(** A class without move assignment: rvalues are copied. *)
Theorem C48_handle {E : Env} (T : TP E) (K : Cls E) h0 t0 :
  Honest T K -> AllocReq E -> (forall a, a_eqb E a a = true) -> pocs E = true ->
  Assignable (handleTP h0 t0 T) (handle_cls h0 t0 K) (plain_asg (handle_cls h0 t0 K)).
Proof. intros HO HA Hr Hp. by apply handle_assignable. Qed.
Print Assumptions C48_handle.

(** A class with a constructor and no other user-written special member function. *)
Theorem C48_zero {E : Env} (T : TP E) (K : Cls E) h0 t0 :
  Honest T K -> AllocReq E -> (forall a, a_eqb E a a = true) ->
  Honest (zeroTP h0 t0 T) (zero_cls h0 t0 K) /\ Assignable (zeroTP h0 t0 T) (zero_cls h0 t0 K) (zero_asg h0 t0 K).
Proof. intros HO HA Hr. split; [by apply zero_honest|by apply zero_assignable]. Qed.
Print Assumptions C48_zero.

(** ** Examples: the hypotheses can be met *)
Definition exH (ma : bool) : flags := Fl false ma false false true false.
Notation EH ma := (exEnv (exH ma)).
Definition ex_zero ma (h0 : header) : TP (EH ma) := zeroTP h0 0 (flatTP (EH ma)).
Definition ex_zero_cls ma (h0 : header) : Cls (EH ma) := zero_cls h0 0 (flat_cls (EH ma)).
Definition ex_zero_asg ma (h0 : header) : Asg (ex_zero_cls ma h0) := zero_asg h0 0 (flat_cls (EH ma)).
(** Member functions: the data; whether the member is valueless. *)
Definition ex_zero_code ma (h0 : header) (f : bool) (l : loc) : prog (EH ma) nat :=
  if f then bind (act (PReadObj (E := EH ma) (RBlk l))) (fun o => Ret o.2)
  else bind (i_valueless (hdr_impl h0 (flatTP (EH ma))) (WMem l 0)) (fun b => Ret (if (b : bool) then 1 else 0)).
Definition ex_zero_sem ma h0 (f : bool) (_ : ty) (x : c_val (ex_zero_cls ma h0)) (r : nat + exn) (x' : c_val (ex_zero_cls ma h0)) : Prop :=
  x' = x /\ r = inl (if f then x.1 else match x.2 with [(None, _)] => 1 | _ => 0 end).

Lemma exH_refl ma a : a_eqb (EH ma) a a = true.
Proof. apply Nat.eqb_refl. Qed.
Example C48_ex_zero ma h0 :
  Honest (ex_zero ma h0) (ex_zero_cls ma h0) /\ Assignable (ex_zero ma h0) (ex_zero_cls ma h0) (ex_zero_asg ma h0).
Proof. apply C48_zero; [|apply ex_alloc|apply exH_refl]. apply flat_honest. by intros t a v. Qed.
Example C48_ex_method ma h0 f : Method (ex_zero_cls ma h0) (ex_zero_code ma h0 f) (ex_zero_sem ma h0 f).
Proof.
  intros t l b x B W s HM [(v & Ho & Hrep) Hb HB HW] _.
  destruct (handle_rep (flat_cls (EH ma)) h0 0 t l v x B W Hrep) as (k & -> & HBl & Hw).
  assert (Hsame : forall v', v' = v -> filled (ex_zero_cls ma h0) l b b t (v, [k]) B W /\ changed s s (<[l := b]> B) W (<[l := b]> B) W).
  { intros v' ->. split.
    - exists v. split; [|exact Hrep]. destruct b. cbn in *. by subst.
    - apply changed_refl; [|done]. clear - Hb HB. map_solve. }
  destruct (Hsame v eq_refl) as [S1 S2]. destruct f; cbn [ex_zero_code].
  - rewrite run_bind. cbn [act run exec deref]. rewrite Hb, Ho. cbn [run].
    by exists (v, [k]), b, B, W.
  - assert (Hat : wrapper_at (flat_cls (EH ma)) s h0 (WMem l 0) k B W) by (by split).
    destruct (wr_ptr _ _ _ _ _ _ _ Hat) as (p & Hp & Hs & _ & Hk). rewrite run_bind.
    assert (HR : run (i_valueless (hdr_impl h0 (flatTP (EH ma))) (WMem l 0)) s =
      ORet (match p with PLoc _ => false | _ => true end) s) by (destruct h0; cbn; rewrite Hs; by destruct p).
    rewrite HR. exists (v, [k]), b, B, W. split; [|done]. split; [done|]. cbn [snd]. destruct k as [[[tk vk]|] ak]; cbn in Hk.
    + by destruct Hk as [l0 ->].
    + by subst.
Qed.

(** Make [x0] with the value 5 and [x1] with the value 7, assign [std::move( *x1 )] to [x0], look,
    assign what is left of [*x1] to [x0], look, destroy. *)
Definition ex_v2 ma : vclient (E := EH ma) bool nat :=
  VDo (VSetL 0 true 1) (fun _ =>
  VDo (VOp (GCall 0 true)) (fun _ =>
  VDo (VOp (GCall 0 false)) (fun _ =>
  VDo (VOp (GDestroy 0)) (fun _ =>
  VDo (VOp (GDestroy 1)) (fun _ => VDone))))).
Definition ex_v1 ma : vclient (E := EH ma) bool nat :=
  VDo (VSetR 0 1) (fun _ =>
  VDo (VOp (GCall 0 true)) (fun _ =>
  VDo (VOp (GCall 1 true)) (fun _ =>
  VDo (VOp (GCall 1 false)) (fun _ => ex_v2 ma)))).
Definition ex_vclient ma (a0 a1 : nat) : vclient (E := EH ma) bool nat :=
  VDo (VOp (GMake (E := EH ma) 0 a0 0 5)) (fun r => match r with inr _ => VDone | inl _ =>
  VDo (VOp (GMake (E := EH ma) 1 a1 0 7)) (fun r => match r with inr _ => VDo (VOp (GDestroy 0)) (fun _ => VDone) | inl _ => ex_v1 ma end) end).
Definition ex_hs (h1 : header) (x : nat) : header := match x with 0 => HInd14 | _ => h1 end.

Section safe.
Context (ma : bool) (h1 h0 : header).
Notation K := (ex_zero_cls ma h0).
Notation V := (ex_zero_asg ma h0).
Notation safe := (vsafe K V bool nat (ex_zero_sem ma h0) (ex_hs h1)).
Definition eng (m : gmap nat (option (ty * c_val K) * eA (EH ma))) (z : nat) : Prop := exists v a, m !! z = Some (Some (0, v), a).
Lemma eng_same m z v a : eng (<[z := (Some (0, v), a)]> m) z.
Proof. exists v, a. apply lookup_insert. Qed.
Lemma eng_other m z z' k : z <> z' -> eng m z -> eng (<[z' := k]> m) z.
Proof. intros Hne (v & a & Hz). exists v, a. by rewrite lookup_insert_ne. Qed.
Lemma eng_get m z k : eng m z -> m !! z = Some k -> exists v, k.1 = Some (0, v).
Proof. intros (v & a & Hz) Hk. rewrite Hz in Hk. injection Hk as <-. by exists v. Qed.
Lemma eng_call m z z' f r m' : eng m z -> gstep K bool nat (ex_zero_sem ma h0) (ex_hs h1) m (GCall z' f) r m' -> eng m' z.
Proof.
  intros Hz (t2 & v2 & a2 & v2' & r2 & H1 & H2 & _ & ->). destruct (decide (z = z')) as [<-|Hne]; [|by apply eng_other].
  destruct (eng_get _ _ _ Hz H1) as (v & Hv). injection Hv as -> _. apply eng_same.
Qed.
Lemma eng_pre m z f : eng m z -> gpre K bool (ex_hs h1) m (GCall z f).
Proof. intros (v & a & Hz). by exists 0, v, a. Qed.

Lemma ex_v2_safe m : eng m 0 -> eng m 1 -> safe (ex_v2 ma) m.
Proof.
  intros F0 F1. split.
  { split; [done|]. split; [done|]. split; [destruct F0 as (? & ? & Hq); by eexists|exact F1]. }
  intros r7 m7 (k & v & a & k' & Hk & Hy & -> & Hr).
  assert (E0 : eng (<[0:=k']> m) 0).
  { destruct (eng_get _ _ _ F0 Hk) as (q & Hq). destruct k as [ok ak]. cbn in Hq. subst ok.
    destruct r7 as [r7|e7]; [destruct Hr as (_ & d' & _ & ->)|destruct Hr as (d' & _ & ->)]; apply eng_same. }
  assert (E1 : eng (<[0:=k']> m) 1) by (by apply eng_other).
  split; [by apply eng_pre|]. intros r4 m4 H4. assert (G0 := eng_call _ _ _ _ _ _ E0 H4). assert (G1 := eng_call _ _ _ _ _ _ E1 H4).
  split; [by apply eng_pre|]. intros r5 m5 H5. assert (J0 := eng_call _ _ _ _ _ _ G0 H5). assert (J1 := eng_call _ _ _ _ _ _ G1 H5).
  split; [destruct J0 as (? & ? & Hq); by eexists|]. intros r6 m6 [_ ->].
  split; [|done]. destruct J1 as (? & ? & Hq). eexists. by rewrite lookup_delete_ne.
Qed.
Lemma ex_v1_safe m : eng m 0 -> eng m 1 -> safe (ex_v1 ma) m.
Proof.
  intros E0 E1. split.
  { split; [done|]. split; [done|]. split; [destruct E0 as (? & ? & Hq); by eexists|exact E1]. }
  intros r3 m3 (k & v & a & k' & v' & Hk & Hy & -> & Hr).
  assert (F0 : eng (<[0:=k']> (<[1:=(Some (tT (EH ma), v'), a)]> m)) 0).
  { destruct (eng_get _ _ _ E0 Hk) as (q & Hq). destruct k as [ok ak]. cbn in Hq. subst ok.
    destruct r3 as [r3|e3]; [destruct Hr as (_ & d' & _ & ->)|destruct Hr as (d' & _ & ->)]; apply eng_same. }
  assert (F1 : eng (<[0:=k']> (<[1:=(Some (tT (EH ma), v'), a)]> m)) 1) by (apply eng_other; [done|apply eng_same]).
  split; [by apply eng_pre|]. intros r4 m4 H4. assert (G0 := eng_call _ _ _ _ _ _ F0 H4). assert (G1 := eng_call _ _ _ _ _ _ F1 H4).
  split; [by apply eng_pre|]. intros r5 m5 H5. assert (J0 := eng_call _ _ _ _ _ _ G0 H5). assert (J1 := eng_call _ _ _ _ _ _ G1 H5).
  split; [by apply eng_pre|]. intros r6 m6 H6. apply ex_v2_safe; by eapply eng_call.
Qed.
Lemma made0 h : made (E := EH ma) h 0 = 0.
Proof. by destruct h. Qed.
Example C48_ex_safe a0 a1 : safe (ex_vclient ma a0 a1) ∅.
Proof.
  split.
  { split; [done|]. exists (5, [(Some (0, 5), a0)]). split; [done|]. exists 5. by rewrite made0. }
  intros [r|e] m Hm; [|done]. destruct Hm as (_ & v & Hv & ->). split.
  { split; [done|]. exists (7, [(Some (0, 7), a1)]). split; [cbn; by rewrite made0|]. exists 7. by rewrite made0. }
  intros [r2|e2] m Hm.
  2:{ cbn in Hm. subst. split; [cbn; rewrite lookup_insert; by eexists|done]. }
  destruct Hm as (_ & v1 & Hv1 & ->). rewrite !made0. apply ex_v1_safe; [apply eng_other; [done|]|]; apply eng_same.
Qed.
End safe.

(** It runs as C48 says.  If the members' allocators are equal the member is taken over, and
    [*x1] is left with a valueless one; otherwise the member's value is moved. *)
Definition ex_vsees ma (a0 a1 : nat) (hh : header * header) (O : list resp) : option (list (gres (E := EH ma) nat + exn) * list loc) :=
  match run (vprog (ex_zero ma hh.2) bool nat (ex_zero_code ma hh.2) (ex_hs hh.1) (ex_vclient ma a0 a1)) (mkS ∅ ∅ ∅ O []) with
  | ORet rs s => Some (rs, (map_to_list (blocks s)).*1)
  | _ => None
  end.
Notation hhs := [(HInd20, HPoly14); (HInd14, HInd20); (HPoly20, HInd14); (HPoly14, HPoly20)].
Example C48_ex_takes_over : map (fun hh => ex_vsees false 1 1 hh []) hhs =
  replicate 4 (Some ([inl RUnit; inl RUnit; inl RUnit; inl (RX 7); inl (RX 0); inl (RX 1);
                      inl RUnit; inl (RX 0); inl (RX 1); inl RUnit; inl RUnit], [])).
Proof. by vm_compute. Qed.
Example C48_ex_moves : map (fun hh => ex_vsees false 1 2 hh []) hhs =
  replicate 4 (Some ([inl RUnit; inl RUnit; inl RUnit; inl (RX 7); inl (RX 0); inl (RX 0);
                      inl RUnit; inl (RX 0); inl (RX 0); inl RUnit; inl RUnit], [])).
Proof. by vm_compute. Qed.

(** The case that ends the program is reached: the allocator propagates, the members' allocators
    are not equal, and making the new object throws; the member's move assignment is noexcept. *)
Theorem C48_can_terminate h1 h0 : exists O,
  run (vprog (ex_zero true h0) bool nat (ex_zero_code true h0) (ex_hs h1) (ex_vclient true 1 2)) (mkS ∅ ∅ ∅ O []) = OTerm.
Proof. exists (replicate 9 (RespOk 0) ++ [RespFail 9]). destruct h1, h0; by vm_compute. Qed.
Print Assumptions C48_can_terminate.

(** The same program over values without members, and assignments from arguments. *)
Example C48_ex_flat : Assignable (flatTP (EH false)) (flat_cls (EH false)) (flat_asg (EH false)).
Proof. by apply C48_flat. Qed.
Definition ex_set : vclient (E := EH false) unit nat :=
  VDo (VOp (GMake (E := EH false) 0 1 0 5)) (fun r => match r with inr _ => VDone | inl _ =>
  VDo (VSet (E := EH false) 0 8) (fun _ =>
  VDo (VOp (GMove 1 0)) (fun _ =>
  VDo (VSet (E := EH false) 0 9) (fun _ =>
  VDo (VOp (GDestroy 0)) (fun _ => VDo (VOp (GDestroy 1)) (fun _ => VDone))))) end).
Example C48_ex_set_safe h : header_cls h = Ind ->
  vsafe (flat_cls (EH false)) (flat_asg (EH false)) unit nat (fun _ _ v r v' => v' = v /\ r = inl v) (fun _ => h) ex_set ∅.
Proof.
  intros Hh. split.
  { split; [done|]. by eexists. }
  intros [r|e] m Hm; [|done]. destruct Hm as (_ & v & Hv & ->). split.
  { split; [done|]. eexists _, _. split; [apply lookup_insert|]. eexists. by split. }
  intros r2 m (k & k' & Hk & -> & Hr). split.
  { split; [by rewrite lookup_insert_ne, lookup_insert_ne|]. split; [done|]. rewrite lookup_insert. by eexists. }
  intros r3 m (_ & k2 & k3 & k4 & Hk2 & Hm & ->). split.
  { split; [done|]. rewrite (lookup_insert_ne _ 1 0) by done. setoid_rewrite lookup_insert.
    destruct k4 as [[[t4 v4]|] a4]; eexists _, _; split; try done; eexists; by split. }
  intros r4 m (k5 & k6 & Hk5 & -> & _). split; [cbn; rewrite lookup_insert; by eexists|]. intros r5 m [_ ->].
  split; [|done]. cbn. rewrite lookup_delete_ne, lookup_insert_ne, lookup_insert by done. by eexists.
Qed.
Example C48_ex_set_run :
  map (fun h => match run (vprog (flatTP (EH false)) unit nat (fun _ l => bind (act (PReadObj (E := EH false) (RBlk l))) (fun o => Ret o.2)) (fun _ => h) ex_set)
                      (mkS ∅ ∅ ∅ [] []) with ORet rs s => Some (length rs, (map_to_list (blocks s)).*1) | _ => None end) [HInd20; HInd14] =
  replicate 2 (Some (6, [])).
Proof. by vm_compute. Qed.
