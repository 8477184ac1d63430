(** * Comparison and hashing of wrappers, over value types whose operators are arbitrary code: the theorems.

    [pure p s R]: [p] run in [s] returns or throws what [R] allows and leaves memory as it was;
    no undefined behaviour, no termination, and what storage it needs meanwhile is used properly ([tidy]). *)

From stdpp Require Import base gmap list.
From Verif Require Import Lang Common Client Spec Rep RunLemmas Headers Hist Compare Tree TreeProps TreeAssign TreeEx Ex
  Contract ContractProps ContractOps ContractMove ContractNode ContractClient ContractClientProps ContractUser ContractUserProps Arena ArenaProps ArenaHome ContractCompare ContractCompareProps.

(** ** C53: the operators *)

(** [x r y] for two [indirect] objects: valueless ones are equal and come first; else the
    result of the value type's operator, or its exception. *)
Theorem C53_operators {E : Env} (T : TP E) (K : Cls E) (HO : Honest T K) (C : Cmps E) (S : CmpSpec (c_val K)) (HC : Compares K C S)
    h r x y kx ky B W B' W' (s : store E) :
  header_cls h = Ind -> mem_ok s -> wrapper_at K s h x kx B W -> wrapper_at K s h y ky B' W' ->
  pure (w_rel (hdr_impl h T) C (gen_of h) r x y) s (w_related S (gen_of h) r (value_of kx) (value_of ky)).
Proof. intros Hh. by apply w_rel_ok. Qed.
Print Assumptions C53_operators.

(** [x r u] and [u r x] for an object [u] of the value type. *)
Theorem C53_value_operators {E : Env} (T : TP E) (K : Cls E) (HO : Honest T K) (C : Cmps E) (S : CmpSpec (c_val K)) (HC : Compares K C S)
    h r x kx B W q b u B' W' (s : store E) :
  header_cls h = Ind -> mem_ok s -> wrapper_at K s h x kx B W -> object K s q b (tT E) u B' W' ->
  pure (w_rel_val (hdr_impl h T) C (gen_of h) r x q) s (w_related S (gen_of h) r (value_of kx) (Some u)) /\
  pure (val_w_rel (hdr_impl h T) C (gen_of h) r q x) s (val_w_related S (gen_of h) r u (value_of kx)).
Proof. intros Hh HM Hx Hq. split; [by eapply w_rel_val_ok|by eapply val_w_rel_ok]. Qed.
Print Assumptions C53_value_operators.

Theorem C53_hash {E : Env} (T : TP E) (K : Cls E) (HO : Honest T K) (C : Cmps E) (S : CmpSpec (c_val K)) (HC : Compares K C S)
    h x kx B W (s : store E) :
  header_cls h = Ind -> mem_ok s -> wrapper_at K s h x kx B W ->
  pure (m_hash (hdr_impl h T) C x) s (w_hashed S (value_of kx)).
Proof. intros Hh. by apply hash_ok. Qed.
Print Assumptions C53_hash.

(** ** C53: classes *)

(** Classes with [indirect] members and memberwise comparison, over any value type whose operators
    keep their promises, to any depth. *)
Theorem C53_classes {E : Env} (Sh : Shape E) (T : TP E) (K : Cls E) (HO : Honest T K) (C : Cmps E) (S : CmpSpec (c_val K)) (h : header)
    deq dtw dhash mix n :
  Compares K C S -> ShapeReq Sh -> Fixed Sh -> AllocReq E -> (forall a, a_eqb E a a = true) ->
  header_cls h = Ind -> (forall i, k_hdr Sh (tT E) i = h) ->
  Compares (tower_cls Sh K n) (tower_cmps Sh T h deq dtw dhash mix C n) (tower_spec Sh h deq dtw dhash mix K S n).
Proof. intros. by apply tower_compares. Qed.
Print Assumptions C53_classes.

(** If the value type's operators mean a total order and do not throw, the six relations between
    two [indirect] objects owning such classes are those of the lexicographic order,
    in both headers. *)
Theorem C53_order {E : Env} (Sh : Shape E) (T : TP E) (K : Cls E) (HO : Honest T K) (C : Cmps E) (S : CmpSpec (c_val K)) (h : header)
    deq dtw dhash mix n o r x y kx ky B W B' W' (s : store E) :
  Compares K C S -> ShapeReq Sh -> Fixed Sh -> AllocReq E -> (forall a, a_eqb E a a = true) ->
  header_cls h = Ind -> (forall i, k_hdr Sh (tT E) i = h) ->
  Means S o -> Total o -> Total dtw -> (forall v v', deq v v' = holds REq (dtw v v')) ->
  mem_ok s -> wrapper_at (tower_cls Sh K n) s h x kx B W -> wrapper_at (tower_cls Sh K n) s h y ky B' W' ->
  exists s', run (w_rel (hdr_impl h (towerTP Sh T n)) (tower_cmps Sh T h deq dtw dhash mix C n) (gen_of h) r x y) s =
      ORet (holds r (opt_order (tower_order Sh dtw K o n) (value_of kx) (value_of ky))) s' /\ same s s'.
Proof.
  intros HC HS HF HA Hr Hh Hm HM Ho Hd Hq Hok Hx Hy.
  destruct (tower_means Sh K S o h deq dtw dhash mix n HM Ho Hd Hq) as [Hn Ht].
  assert (G := C53_operators (towerTP Sh T n) (tower_cls Sh K n) (tower_honest HA Hr Sh T K n HS HF HO) _ _
    (C53_classes Sh T K HO C S h deq dtw dhash mix n HC HS HF HA Hr Hh Hm) h r x y kx ky B W B' W' s Hh Hok Hx Hy).
  destruct G as [G _]. destruct (run _ s) as [b s'|e s'| |]; [| |done|done]; destruct G as [G Hs];
    apply (w_related_means _ _ Hn Ht) in G; [|done]. injection G as ->. by exists s'.
Qed.
Print Assumptions C53_order.

(** The same for the classes of C52, which hand their allocator on to their members. *)
Theorem C53_scoped {E : Env} (Sh : Shape E) (s_arg : Passing E) (T : TP E) (K : Cls E) (HO : Honest T K) (C : Cmps E) (S : CmpSpec (c_val K)) (h : header)
    deq dtw dhash mix n :
  Compares K C S -> ShapeReq Sh -> Fixed Sh -> AllocReq E ->
  header_cls h = Ind -> (forall t i, k_hdr Sh t i = h) ->
  Compares (scoped_tower Sh s_arg K n) (scoped_cmps Sh T h deq dtw dhash mix s_arg C n) (scoped_spec Sh h deq dtw dhash mix s_arg K S n).
Proof. intros HC HS HF HA Hh Hm. apply scoped_compares; try done. intros t i. rewrite Hm. by intros ->. Qed.
Print Assumptions C53_scoped.

Theorem C53_scoped_order {E : Env} (Sh : Shape E) (s_arg : Passing E) (T : TP E) (K : Cls E) (HO : Honest T K) (C : Cmps E) (S : CmpSpec (c_val K)) (h : header)
    deq dtw dhash mix n o r x y kx ky B W B' W' (s : store E) :
  Compares K C S -> ShapeReq Sh -> Fixed Sh -> AllocReq E ->
  header_cls h = Ind -> (forall t i, k_hdr Sh t i = h) ->
  Means S o -> Total o -> Total dtw -> (forall v v', deq v v' = holds REq (dtw v v')) ->
  mem_ok s -> wrapper_at (scoped_tower Sh s_arg K n) s h x kx B W -> wrapper_at (scoped_tower Sh s_arg K n) s h y ky B' W' ->
  exists s', run (w_rel (hdr_impl h (scopedTP Sh s_arg T n)) (scoped_cmps Sh T h deq dtw dhash mix s_arg C n) (gen_of h) r x y) s =
      ORet (holds r (opt_order (scoped_order Sh s_arg dtw K o n) (value_of kx) (value_of ky))) s' /\ same s s'.
Proof.
  intros HC HS HF HA Hh Hm HM Ho Hd Hq Hok Hx Hy.
  destruct (scoped_means Sh s_arg K S o h deq dtw dhash mix n HM Ho Hd Hq) as [Hn Ht].
  assert (HP : forall t i, k_hdr Sh t i = HPoly14 -> pocca E = false) by (intros t i; rewrite Hm; by intros ->).
  assert (G := C53_operators (scopedTP Sh s_arg T n) (scoped_tower Sh s_arg K n) (scoped_tower_honest Sh s_arg HS HF HA HP T K n HO) _ _
    (C53_scoped Sh s_arg T K HO C S h deq dtw dhash mix n HC HS HF HA Hh Hm) h r x y kx ky B W B' W' s Hh Hok Hx Hy).
  destruct G as [G _]. destruct (run _ s) as [b s'|e s'| |]; [| |done|done]; destruct G as [G Hs];
    apply (w_related_means _ _ Hn Ht) in G; [|done]. injection G as ->. by exists s'.
Qed.
Print Assumptions C53_scoped_order.

(** ** C53: programs *)

(** Programs that compare and hash, mixed with all operations of C46: comparisons change
    nothing and the program sees what the specification allows. *)
Theorem C53_programs {E : Env} (T : TP E) (K : Cls E) (HO : Honest T K) (C : Cmps E) (S : CmpSpec (c_val K)) (HC : Compares K C S)
    (HA : AllocReq E) (Hrefl : forall a, a_eqb E a a = true)
    (M X : Type) (code : M -> loc -> prog E X) (sem : M -> ty -> c_val K -> X + exn -> c_val K -> Prop) (HM : forall f, Method K (code f) (sem f))
    (hs : nat -> header) c m (s : store E) :
  held K hs s m -> csafe K S M X sem hs c m ->
  match run (cprog T C M X code hs c) s with
  | ORet rs s' => exists m', cexec K S M X sem hs c m rs m' /\ held K hs s' m'
  | OTerm => cterm K S M X sem hs c m
  | _ => False
  end.
Proof. by apply cclient_run. Qed.
Print Assumptions C53_programs.

(** ** C53: the operators of Compare.v *)

(** Over a value type whose operators are functions, the programs compute the functions of
    Compare.v (C29 to C33), in every store. *)
Theorem C53_functions {E : Env} fr ft fh h g r x y (s : store E) :
  lift (run (w_rel (hdr_impl h (flatTP E)) (flat_cmps fr ft fh) g r x y) s) =
  compare g (flat_cmp fr ft) (flat_cmp fr ft) r (operand_of (hdr_impl h (flatTP E)) s x) (operand_of (hdr_impl h (flatTP E)) s y).
Proof. apply agree. Qed.
Print Assumptions C53_functions.

(** ** Examples: the hypotheses can be met *)

Definition exQ : flags := Fl false false false false true false.
Notation EQ := (exEnv exQ).
Definition ex_ord (x y : nat) : ordering := match Nat.compare x y with Lt => Less | Eq => Equiv | Gt => Greater end.
Example C53_ex_total : Total ex_ord.
Proof. intros x y. unfold ex_ord. rewrite (Nat.compare_antisym x y). by destruct (Nat.compare x y). Qed.
(** Numbers with [<=>] or without; comparing 13 throws if [bad]. *)
Definition ex_rel (bad : bool) (r : rel) (x y : nat) : bool + exn :=
  if bad && (Nat.eqb x 13 || Nat.eqb y 13) then inr 7 else inl (holds r (ex_ord x y)).
Definition ex_cmps (bad : bool) (tw : bool) : Cmps EQ :=
  flat_cmps (E := EQ) (ex_rel bad) (if tw then Some (fun x y => inl (ex_ord x y)) else None) (fun x => inl (N.of_nat x)).
Definition ex_spec (bad : bool) (tw : bool) : CmpSpec (c_val (flat_cls EQ)) :=
  flat_spec (E := EQ) (ex_rel bad) (if tw then Some (fun x y => inl (ex_ord x y)) else None) (fun x => inl (N.of_nat x)).
Example C53_ex_compares bad tw : Compares (flat_cls EQ) (ex_cmps bad tw) (ex_spec bad tw).
Proof. apply flat_compares. Qed.
Example C53_ex_means tw : Means (ex_spec false tw) ex_ord.
Proof. split; [by intros r x y res ->|]. destruct tw; [by intros R x y res [= <-] ->|done]. Qed.

(** Classes with a number and two [indirect] members, to any depth. *)
Definition ex_deq (x y : nat) : bool := holds REq (ex_ord x y).
Definition ex_mix (a b : N) : N := (31 * a + b)%N.
Example C53_ex_class h bad n : header_cls h = Ind ->
  Compares (tower_cls (exShape exQ h) (flat_cls EQ) n) (tower_cmps (exShape exQ h) (flatTP EQ) h ex_deq ex_ord N.of_nat ex_mix (ex_cmps bad false) n)
    (tower_spec (exShape exQ h) h ex_deq ex_ord N.of_nat ex_mix (flat_cls EQ) (ex_spec bad false) n).
Proof.
  intros Hh. apply C53_classes; [apply flat_honest; by intros t a v|apply C53_ex_compares|apply exShape_req|apply exShape_fixed|apply ex_alloc|apply ex_refl|done|done].
Qed.
(** Two levels of classes that make their members; the second member is the number plus one. *)
Definition ex_pass : Passing EQ := fun _ c i => (0, c + i).
Definition ex_ctp (h : header) : TP EQ := scopedTP (exShape exQ h) ex_pass (flatTP EQ) 2.
Definition ex_ccls (h : header) : Cls EQ := scoped_tower (exShape exQ h) ex_pass (flat_cls EQ) 2.
Definition ex_ccmps (h : header) (bad : bool) : Cmps EQ :=
  scoped_cmps (exShape exQ h) (flatTP EQ) h ex_deq ex_ord N.of_nat ex_mix ex_pass (ex_cmps bad false) 2.
Definition ex_cspec (h : header) (bad : bool) : CmpSpec (c_val (ex_ccls h)) :=
  scoped_spec (exShape exQ h) h ex_deq ex_ord N.of_nat ex_mix ex_pass (flat_cls EQ) (ex_spec bad false) 2.
Example C53_ex_scoped h bad : header_cls h = Ind -> Compares (ex_ccls h) (ex_ccmps h bad) (ex_cspec h bad).
Proof.
  intros Hh. apply C53_scoped; [apply flat_honest; by intros t a v|apply C53_ex_compares|apply exShape_req|apply exShape_fixed|apply ex_alloc|done|done].
Qed.

(** A program: make two objects, compare them in both directions, with a value, move one away and
    compare and hash the valueless one. *)
Definition ex_rest : cclient (E := EQ) Empty_set unit :=
  CDo (CRel RLt 0 1) (fun _ =>
  CDo (CRel RGe 0 1) (fun _ =>
  CDo (CValRel RGt 0 1) (fun _ =>
  CDo (CRelVal RNe 1 0) (fun _ =>
  CDo (COp (GMove 2 0)) (fun _ =>
  CDo (CRel RLt 0 1) (fun _ =>
  CDo (CHash 1) (fun _ =>
  CDo (CHash 0) (fun _ => CDone)))))))).
Definition ex_compare (u w : nat) : cclient (E := EQ) Empty_set unit :=
  CDo (COp (GMake (E := EQ) 0 1 0 u)) (fun r => match r with inr _ => CDone | inl _ =>
  CDo (COp (GMake (E := EQ) 1 2 0 w)) (fun r => match r with inr _ => CDone | inl _ => ex_rest end) end).

Section safe.
Context (K : Cls EQ) (S : CmpSpec (c_val K)) (h : header) (Hh : header_cls h = Ind).
Notation safe := (csafe K S Empty_set unit (fun f => match f with end) (fun _ => h)).
Lemma ex_rest_safe m v k : m !! 0 = Some (Some (tT EQ, v), 1) -> m !! 1 = Some k -> m !! 2 = None -> safe ex_rest m.
Proof.
  intros H0 H1 Hn. unfold ex_rest. cbn [csafe].
  split; [split_and!; [done|done|by eexists|by eexists]|]. intros r3 m3 [-> _].
  split; [split_and!; [done|done|by eexists|by eexists]|]. intros r4 m4 [-> _].
  split; [split_and!; [done|by eexists|exists v, 1; exact H0]|]. intros r5 m5 [-> _].
  split; [split_and!; [done|by eexists|exists v, 1; exact H0]|]. intros r6 m6 [-> _].
  split; [split_and!; [done|done|by eexists]|]. intros r7 m7 (r7' & Hm & _).
  destruct Hm as (_ & kk & k' & ky & Hk & Hmv & ->).
  assert (I0 : is_Some ((<[2:=k']> (<[0:=ky]> m)) !! 0)) by (rewrite lookup_insert_ne, lookup_insert by done; by eexists).
  assert (I1 : is_Some ((<[2:=k']> (<[0:=ky]> m)) !! 1)) by (rewrite !lookup_insert_ne, H1 by done; by eexists).
  split; [by split_and!|]. intros r8 m8 [-> _].
  split; [by split|]. intros r9 m9 [-> _].
  split; [by split|]. done.
Qed.
Lemma ex_compare_safe u w :
  (exists v, c_make K (tT EQ) 1 u v) -> (exists v, c_make K (tT EQ) 2 w v) -> safe (ex_compare u w) ∅.
Proof.
  intros Hu Hw. assert (Ht : made (E := EQ) h 0 = tT EQ) by (by destruct h). cbn [csafe ex_compare].
  split; [split; [done|by rewrite Ht]|].
  intros [r|e] m Hm; [|done]. destruct Hm as ([r'|e'] & Hm & Hr); [|done]. destruct Hm as (_ & v & Hv & ->). cbn [csafe].
  split; [split; [done|by rewrite Ht]|].
  intros [r2|e2] m Hm; [|done]. destruct Hm as ([r2'|e2'] & Hm & Hr2); [|done]. destruct Hm as (_ & v2 & Hv2 & ->).
  rewrite Ht. eapply ex_rest_safe.
  - by rewrite lookup_insert_ne, lookup_insert.
  - by rewrite lookup_insert.
  - by rewrite !lookup_insert_ne.
Qed.
End safe.
Example C53_ex_safe bad h u w : header_cls h = Ind ->
  csafe (flat_cls EQ) (ex_spec bad false) Empty_set unit (fun f => match f with end) (fun _ => h) (ex_compare u w) ∅.
Proof. intros Hh. by apply ex_compare_safe; [|eexists|eexists]. Qed.
Example C53_ex_scoped_safe bad h : header_cls h = Ind ->
  csafe (ex_ccls h) (ex_cspec h bad) Empty_set unit (fun f => match f with end) (fun _ => h) (ex_compare 5 9) ∅.
Proof.
  intros Hh. apply ex_compare_safe; [done|exists (5, [(Some (0, (5, [(Some (0, 5), 1); (Some (0, 6), 1)])), 1); (Some (0, (6, [(Some (0, 6), 1); (Some (0, 7), 1)])), 1)])|
    exists (9, [(Some (0, (9, [(Some (0, 9), 2); (Some (0, 10), 2)])), 2); (Some (0, (10, [(Some (0, 10), 2); (Some (0, 11), 2)])), 2)])];
  destruct h; try done; cbn; repeat (first [done | split | eexists | progress cbn]).
  all: repeat (first [done | split | eexists | progress cbn]).
Qed.

(** What the program sees for 5 and 9; for 5 and 13, where the operators throw; and for classes
    with members. *)
Definition ex_crun (T : TP EQ) (C : Cmps EQ) (u w : nat) (h : header) : option (list (cres (E := EQ) unit + exn)) :=
  match run (cprog T C Empty_set unit (fun f => match f with end) (fun _ => h) (ex_compare u w)) (mkS ∅ ∅ ∅ [] []) with
  | ORet rs s' => Some (drop 2 rs)
  | _ => None
  end.
Definition bools (l : list bool) : list (cres (E := EQ) unit + exn) := (fun b => inl (CR (RBool b))) <$> l.
Example C53_ex_run : map (ex_crun (flatTP EQ) (ex_cmps true false) 5 9) [HInd20; HInd14] =
  replicate 2 (Some (bools [true; false; false; true] ++ [inl (CR RUnit)] ++ bools [true] ++ [inl (CN 9%N); inl (CN (N.ones 64))])).
Proof. by vm_compute. Qed.
Example C53_ex_throw : map (ex_crun (flatTP EQ) (ex_cmps true false) 5 13) [HInd20; HInd14] =
  replicate 2 (Some ([inr 7; inr 7; inr 7; inr 7; inl (CR RUnit)] ++ bools [true] ++ [inl (CN 13%N); inl (CN (N.ones 64))])).
Proof. by vm_compute. Qed.
Example C53_ex_class_run : map (fun h => option_map (take 6) (ex_crun (ex_ctp h) (ex_ccmps h false) 5 9 h)) [HInd20; HInd14] =
  replicate 2 (Some (bools [true; false; false; true] ++ [inl (CR RUnit)] ++ bools [true])).
Proof. by vm_compute. Qed.
(** Equal numbers on top: the comparison meets 13 two levels down. *)
Example C53_ex_deep_throw : map (fun h => option_map (take 6) (ex_crun (ex_ctp h) (ex_ccmps h true) 12 12 h)) [HInd20; HInd14] =
  replicate 2 (Some ([inr 7; inr 7; inr 7; inr 7; inl (CR RUnit)] ++ bools [true])).
Proof. by vm_compute. Qed.
