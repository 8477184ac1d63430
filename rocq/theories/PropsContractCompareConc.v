(** * Threads that compare and hash wrappers: the theorems.

    As in PropsContractConc.v: wrappers of any of the four headers over any class that is
    [Shareable], each thread with variables of its own ([o x = Some i]) and all with the shared
    ones ([o x = None]).  The threads may now also compare and hash those they see, if these are
    [indirect] objects, whose value type's operators are arbitrary code that means [S] ([Compares], ContractCompare.v)
    and for which const means const ([Quiet]).  Every schedule and every behaviour of the environment. *)

From stdpp Require Import base gmap list relations.
From Verif Require Import Lang Common Client Spec Rep RunLemmas Headers Hist Draft Compare Tree TreeProps TreeAssign TreeEx Ex Conc ConcStatic ConcExec ConcProps.
From Verif Require Import Contract ContractProps ContractClient ContractClientProps ContractUser ContractUserProps ContractTidy ContractTidyProps PropsContract.
From Verif Require Import ConcPar ContractConc ContractConcProps ContractConcJoin ContractConcUser Arena ContractConcScoped PropsContractConc.
From Verif Require Import Arena ArenaProps ContractCompare ContractCompareProps ContractCompareConc ContractCompareConcProps PropsContractCompare.

(** ** C54 *)
Section threads.
Context {E : Env} (T : TP E) (K : Cls E) (HK : Shareable T K).
Context (Cm : Cmps E) (S : CmpSpec (c_val K)) (HS : Compares K Cm S) (HQ : Quiet Cm).
Context (HA : AllocReq E) (HCR : CopyReq E) (Hrefl : forall a, a_eqb E a a = true).
Context (M X : Type) (code : M -> loc -> prog E X) (sem : M -> ty -> c_val K -> X + exn -> c_val K -> Prop).
Context (const : M -> bool).
Context (HM : forall f, Method K (code f) (sem f)) (HMT : forall f, MethodT K (const f) (code f) (sem f)).
Context (hs : nat -> header) (o : nat -> option nat).
Implicit Types C : config E (list (cres (E := E) X + exn)).

(** No data race, and nothing undefined. *)
Theorem C54_no_race s m cs C :
  held K hs s m -> cclients_ok K S M X sem const hs o m cs -> csteps (cstart T Cm M X code hs s cs) C ->
  ~ race C /\ ~ undefined C.
Proof.
  intros (FB & FW & Hh) Hc Hs. destruct HK as [S1 S2 S3 S4].
  destruct (steps_inv HCR _ _ _ _ _ _ _ _ (cstart_inv T K S1 S2 S3 S4 Cm S HS HQ HA HCR Hrefl M X code sem const HM HMT hs o s m FB FW Hh cs Hc) Hs) as [L HL].
  split; [by eapply inv_no_race|by eapply inv_no_undefined].
Qed.

(** What a thread that has finished saw, of comparisons, hashes and all else, is what its
    program alone may see, by the specification, of the variables it can see. *)
Theorem C54_results s m cs C i rs tr :
  held K hs s m -> cclients_ok K S M X sem const hs o m cs -> csteps (cstart T Cm M X code hs s cs) C ->
  c_threads C !! i = Some (Ret rs, tr) ->
  exists c m', cs !! i = Some c /\ cexec K S M X sem hs c (view_of K o i m) rs m' /\
    forall x, o x = None -> m' !! x = m !! x.
Proof.
  intros (FB & FW & Hh) Hc Hs Hi. destruct HK as [S1 S2 S3 S4].
  destruct (steps_inv HCR _ _ _ _ _ _ _ _ (cstart_inv T K S1 S2 S3 S4 Cm S HS HQ HA HCR Hrefl M X code sem const HM HMT hs o s m FB FW Hh cs Hc) Hs) as [L HL].
  destruct (any_done T K S1 hs o s m FB FW Hh _ _ (cclients_since T K S1 S2 S3 S4 Cm S HS HQ HA HCR Hrefl M X code sem const HM HMT hs o m cs Hc) C L i rs tr HL Hi)
    as (m' & (c & H1 & H2) & FB' & FW' & _ & H3).
  exists c, m'. split; [done|]. split; [done|]. intros x Hx. destruct (H3 x) as (_ & _ & ->); [congruence|].
  unfold view_of. rewrite map_filter_lookup. destruct (m !! x); [|done]. cbn. rewrite option_guard_True by by left. done.
Qed.

(** A thread does not throw out of its program, whatever the operators throw. *)
Theorem C54_no_escape s m cs C i e tr :
  held K hs s m -> cclients_ok K S M X sem const hs o m cs -> csteps (cstart T Cm M X code hs s cs) C ->
  c_threads C !! i <> Some (Throw e, tr).
Proof.
  intros (FB & FW & Hh) Hc Hs. destruct HK as [S1 S2 S3 S4].
  destruct (steps_inv HCR _ _ _ _ _ _ _ _ (cstart_inv T K S1 S2 S3 S4 Cm S HS HQ HA HCR Hrefl M X code sem const HM HMT hs o s m FB FW Hh cs Hc) Hs) as [L HL].
  by eapply (any_no_escape T K S1 hs o s m FB FW Hh _ _ (cclients_since T K S1 S2 S3 S4 Cm S HS HQ HA HCR Hrefl M X code sem const HM HMT hs o m cs Hc) C L).
Qed.

(** At any time the shared variables, with everything they own, are as they were. *)
Theorem C54_shared_unchanged s m cs C :
  held K hs s m -> cclients_ok K S M X sem const hs o m cs -> csteps (cstart T Cm M X code hs s cs) C ->
  forall x k, o x = None -> m !! x = Some k ->
    exists B W, wrapper_at K s (hs x) (WVar x) k B W /\ wrapper_at K (whole C) (hs x) (WVar x) k B W.
Proof.
  intros (FB & FW & Hh) Hc Hs x k Hx Hk. destruct HK as [S1 S2 S3 S4].
  destruct (steps_inv HCR _ _ _ _ _ _ _ _ (cstart_inv T K S1 S2 S3 S4 Cm S HS HQ HA HCR Hrefl M X code sem const HM HMT hs o s m FB FW Hh cs Hc) Hs) as [L HL].
  exists (FB x), (FW x). split; [by apply (held_at K hs _ _ _ _ _ _ Hh)|]. by eapply (any_shared T K S1 hs o s m FB FW Hh).
Qed.

(** When all threads are done, memory holds exactly the variables, nothing has leaked, and
    every variable has the value its thread's program alone may leave it with. *)
Theorem C54_join s m cs C :
  held K hs s m -> cclients_ok K S M X sem const hs o m cs -> (forall x i, o x = Some i -> i < length cs) ->
  csteps (cstart T Cm M X code hs s cs) C -> all_done C ->
  exists m' (ms : nat -> gmap nat (option (ty * c_val K) * eA E)),
    held K hs (whole C) m' /\
    (forall x, m' !! x = match o x with None => m !! x | Some i => ms i !! x end) /\
    forall i c, cs !! i = Some c ->
      exists rs tr, c_threads C !! i = Some (Ret rs, tr) /\ cexec K S M X sem hs c (view_of K o i m) rs (ms i).
Proof.
  intros (FB & FW & Hh) Hc Ho Hs Hd. destruct HK as [S1 S2 S3 S4].
  destruct (steps_inv HCR _ _ _ _ _ _ _ _ (cstart_inv T K S1 S2 S3 S4 Cm S HS HQ HA HCR Hrefl M X code sem const HM HMT hs o s m FB FW Hh cs Hc) Hs) as [L HL].
  destruct (any_join T K S1 hs o s m FB FW Hh _ _ (cclients_since T K S1 S2 S3 S4 Cm S HS HQ HA HCR Hrefl M X code sem const HM HMT hs o m cs Hc) C L HL Hd)
    as (m' & ms & H1 & H2 & H3); [by rewrite fmap_length|].
  exists m', ms. split; [done|]. split; [done|]. intros i c Hi.
  destruct (H3 i) as (rs & tr & Hr & c' & Hc' & Hex); [rewrite fmap_length; by eapply lookup_lt_Some|].
  exists rs, tr. split; [done|]. by simplify_eq.
Qed.
End threads.
Print Assumptions C54_no_race.
Print Assumptions C54_results.
Print Assumptions C54_no_escape.
Print Assumptions C54_shared_unchanged.
Print Assumptions C54_join.

(** ** Classes *)

(** Classes with [indirect] members and memberwise comparison, to any depth: all that the
    theorems above ask of them. *)
Theorem C54_classes {E : Env} (Sh : Shape E) (T : TP E) (K : Cls E) (C : Cmps E) (S : CmpSpec (c_val K)) (h : header) deq dtw dhash mix n :
  Shareable T K -> Compares K C S -> Quiet C ->
  ShapeReq Sh -> Fixed Sh -> (forall c, k_args Sh c = []) -> AllocReq E -> (forall a, a_eqb E a a = true) ->
  header_cls h = Ind -> (forall i, k_hdr Sh (tT E) i = h) ->
  Shareable (towerTP Sh T n) (tower_cls Sh K n) /\
  Compares (tower_cls Sh K n) (tower_cmps Sh T h deq dtw dhash mix C n) (tower_spec Sh h deq dtw dhash mix K S n) /\
  Quiet (tower_cmps Sh T h deq dtw dhash mix C n).
Proof.
  intros HK HC HQ HS HF Hk HA Hr Hh Hm. split; [by apply tower_shareable|]. split; [|by apply tower_quiet].
  apply tower_compares; try done. by destruct HK.
Qed.
Print Assumptions C54_classes.

(** Classes that construct their members with their owner's allocator. *)
Theorem C54_scoped {E : Env} (Sh : Shape E) (s_arg : Passing E) (T : TP E) (K : Cls E) (C : Cmps E) (S : CmpSpec (c_val K)) (h : header) deq dtw dhash mix n :
  Shareable T K -> Compares K C S -> Quiet C ->
  ShapeReq Sh -> Fixed Sh -> AllocReq E -> (forall a, a_eqb E a a = true) ->
  header_cls h = Ind -> (forall t i, k_hdr Sh t i = h) ->
  Shareable (scopedTP Sh s_arg T n) (scoped_tower Sh s_arg K n) /\
  Compares (scoped_tower Sh s_arg K n) (scoped_cmps Sh T h deq dtw dhash mix s_arg C n) (scoped_spec Sh h deq dtw dhash mix s_arg K S n) /\
  Quiet (scoped_cmps Sh T h deq dtw dhash mix s_arg C n).
Proof.
  intros HK HC HQ HS HF HA Hr Hh Hm.
  assert (HP : forall t i, k_hdr Sh t i = HPoly14 -> pocca E = false) by (intros t i; rewrite Hm; by intros ->).
  split; [by apply scoped_tower_shareable|]. split; [|by apply scoped_quiet].
  apply scoped_compares; try done. by destruct HK.
Qed.
Print Assumptions C54_scoped.

(** ** Not vacuous *)

Example C54_ex_quiet bad tw : Quiet (ex_cmps bad tw).
Proof. apply flat_quiet. Qed.
Example C54_ex_shareable : Shareable (flatTP EQ) (flat_cls EQ).
Proof. apply C47_flat. by intros t a v. Qed.
Example C54_ex_classes h bad n : header_cls h = Ind ->
  Shareable (towerTP (exShape exQ h) (flatTP EQ) n) (tower_cls (exShape exQ h) (flat_cls EQ) n) /\
  Quiet (tower_cmps (exShape exQ h) (flatTP EQ) h ex_deq ex_ord N.of_nat ex_mix (ex_cmps bad false) n).
Proof.
  intros Hh.
  destruct (C54_classes (exShape exQ h) (flatTP EQ) (flat_cls EQ) (ex_cmps bad false) (ex_spec bad false) h ex_deq ex_ord N.of_nat ex_mix n) as (H1 & _ & H3);
    first [apply C54_ex_shareable|apply C53_ex_compares|apply C54_ex_quiet|apply exShape_req|apply exShape_fixed|apply ex_alloc|apply ex_refl|done].
Qed.

(** The class of PropsContractCompare.v whose objects make two levels of members. *)
Example C54_ex_scoped h bad : header_cls h = Ind -> Shareable (ex_ctp h) (ex_ccls h) /\ Quiet (ex_ccmps h bad).
Proof.
  intros Hh.
  destruct (C54_scoped (exShape exQ h) ex_pass (flatTP EQ) (flat_cls EQ) (ex_cmps bad false) (ex_spec bad false) h ex_deq ex_ord N.of_nat ex_mix 2) as (H1 & _ & H3);
    first [apply C54_ex_shareable|apply C53_ex_compares|apply C54_ex_quiet|apply exShape_req|apply exShape_fixed|apply ex_alloc|apply ex_refl|done].
Qed.

(** Variable 0 is shared and owns [v], variable [i+1] belongs to thread [i].  Each thread copies the shared
    object, compares the copy with it, the shared one with itself and with a value, hashes it, and destroys the copy. *)
Definition c_init (v : nat) : store EQ :=
  mkS {[ 0 := mkB (E := EQ) 1 (kbty Ind 0) (khdr Ind 0 0) (OLive (E := EQ) 0 v) ]} {[ WVar 0 := mkW (E := EQ) (PLoc 0) 1 ]} ∅ [] [].
Definition c_vars (v : nat) : gmap nat (option (ty * c_val (flat_cls EQ)) * eA EQ) := {[ 0 := (Some (0, v), 1) ]}.
Definition c_rest (x : nat) : cclient (E := EQ) Empty_set unit :=
  CDo (CRel RLe x 0) (fun _ =>
  CDo (CRel RNe 0 0) (fun _ =>
  CDo (CRelVal RGt 0 x) (fun _ =>
  CDo (CHash 0) (fun _ =>
  CDo (COp (GDestroy x)) (fun _ => CDone))))).
Definition c_client (x : nat) : cclient (E := EQ) Empty_set unit :=
  CDo (COp (GCopy x 0)) (fun r => match r with inr _ => CDone | inl _ => c_rest x end).
Lemma c_held h v : header_cls h = Ind -> held (flat_cls EQ) (fun _ => h) (c_init v) (c_vars v).
Proof.
  intros Hh.
  exists (fun x => match x with 0 => blocks (c_init v) | _ => ∅ end), (fun x => match x with 0 => wraps (c_init v) | _ => ∅ end). split.
  - unfold part, c_vars. intros [|x]; [rewrite lookup_singleton|by rewrite lookup_singleton_ne].
    eexists 0, _, v, ∅, ∅. cbn [c_init blocks wraps]. rewrite !insert_empty. rewrite Hh. split; [done|]. split; [done|]. split; [done|]. split; [|done].
    by repeat split.
  - intros [|x]; [done|apply map_empty_subseteq].
  - intros [|x]; [done|apply map_empty_subseteq].
  - intros [|x] [|y] Hne; try done; try apply map_disjoint_empty_l; apply map_disjoint_empty_r.
  - intros [|x] [|y] Hne; try done; try apply map_disjoint_empty_l; apply map_disjoint_empty_r.
  - intros l Hl. by exists 0.
  - intros l Hl. by exists 0.
Qed.
Example C54_ex_held h v : header_cls h = Ind -> held (flat_cls EQ) (fun _ => h) (c_init v) (c_vars v).
Proof. apply c_held. Qed.

Notation none := (fun f : Empty_set => match f with end).
Example C54_ex_clients h bad v : header_cls h = Ind ->
  cclients_ok (flat_cls EQ) (ex_spec bad false) Empty_set unit none none (fun _ => h) to (c_vars v) [c_client 1; c_client 2].
Proof.
  intros Hh.
  assert (Hc : forall i (m : gmap nat (option (ty * c_val (flat_cls EQ)) * eA EQ)), m !! 0 = Some (Some (0, v), 1) -> m !! S i = None ->
    cok (flat_cls EQ) (ex_spec bad false) Empty_set unit none none (fun _ => h) to i (c_client (S i)) m).
  { intros i m Hm0 Hmi. cbn [cok c_client]. split; [split; [done|]; split; [done|]; by eexists|]. split; [split; [done|by left]|].
    intros [r|e] m1 Hst; [|done]. destruct Hst as ([r'|e'] & Hst & Hr); [|done]. destruct Hst as (_ & k & k' & Hk & Hc & ->).
    assert (k = (Some (0, v), 1)) as -> by (pose proof (eq_trans (eq_sym Hk) Hm0) as Hk'; by injection Hk').
    unfold copied in Hc. cbn [fst snd] in Hc. destruct Hc as (x' & Hx' & ->).
    clear r Hr r' Hx'.
    match goal with |- cok _ _ _ _ _ _ _ _ _ _ ?m3 => set (m3' := m3) end.
    assert (I0 : is_Some (m3' !! 0)) by (unfold m3'; rewrite lookup_insert_ne by done; by eexists).
    assert (I1 : exists w a, m3' !! S i = Some (Some (tT EQ, w), a)) by (unfold m3'; eexists _, _; by rewrite lookup_insert).
    assert (J1 : is_Some (m3' !! S i)) by (destruct I1 as (? & ? & ->); by eexists).
    clearbody m3'. cbn [cok c_rest].
    split; [done|]. split; [done|]. intros r2 m2' [-> _].
    split; [done|]. split; [done|]. intros r3 m3 [-> _].
    split; [by split_and!|]. split; [done|]. intros r4 m4 [-> _].
    split; [by split|]. split; [done|]. intros r5 m5 [-> _].
    split; [done|]. by split. }
  intros [|[|i]] c Hi; [| |done]; injection Hi as <-; apply Hc; unfold view_of, c_vars; by rewrite map_filter_singleton_True by by left.
Qed.

(** Both threads may run to their end, step by step in turn, and see what they should; if the
    value is 13, whose comparison throws, they see the exception. *)
Definition c_run (bad : bool) (v : nat) (h : header) :=
  let C := cstart (flatTP EQ) (ex_cmps bad false) Empty_set unit none (fun _ => h) (c_init v) [c_client 1; c_client 2] in
  let is := interleave (tsteps 300 C 0) (tsteps 300 C 1) in
  (tresult (sched is C) 0, tresult (sched is C) 1, match sched is C with Some C' => size (c_blocks C') | None => 0 end).
Example C54_ex_runs : map (c_run true 5) [HInd20; HInd14] =
  let rs := inl (CR RUnit) :: bools [true; false; false] ++ [inl (CN 5%N); inl (CR RUnit)] in replicate 2 (Some rs, Some rs, 1).
Proof. by vm_compute. Qed.
Example C54_ex_throws : map (c_run true 13) [HInd20; HInd14] =
  let rs := [inl (CR RUnit); inr 7; inr 7; inr 7; inl (CN 13%N); inl (CR RUnit)] in replicate 2 (Some rs, Some rs, 1).
Proof. by vm_compute. Qed.

(** ** Const must mean const *)

(** If the value type's operators write a [mutable] member of their left operand, even the value
    it has, and otherwise keep every promise, two threads that compare shared wrappers race. *)
Lemma touch_compares {E : Env} (K : Cls E) C S : Compares K C S -> Compares K (touch_cmps C) S.
Proof.
  intros [H1 H2 H3]. split; [|exact H2|exact H3].
  intros r l b x B W l' b' y B' W' s HM Hl Hq. assert (G := H1 r l b x B W l' b' y B' W' s HM Hl Hq).
  destruct Hl as [(v & Ho & _) Hb _ _]. assert (Ht := touch_same l b _ v s Hb Ho).
  destruct G as [G1 G2]. split; cbn [touch_cmps p_rel].
  - rewrite run_bind. cbn [act run]. by rewrite Ht.
  - apply tidy_bind; [by apply plain_tidy|]. intros [] s1. cbn [act run]. rewrite Ht. by intros [= <-].
Qed.
Theorem C54_const_needed : forall h, header_cls h = Ind ->
  exists (T : TP EQ) (K : Cls EQ) (Cm : Cmps EQ) (S : CmpSpec (c_val K)) s m cs C,
    Shareable T K /\ Compares K Cm S /\ AllocReq EQ /\ CopyReq EQ /\
    held K (fun _ => h) s m /\
    cclients_ok K S Empty_set unit none none (fun _ => h) to m cs /\
    csteps (cstart T Cm Empty_set unit none (fun _ => h) s cs) C /\ race C.
Proof.
  intros h Hh.
  pose (cs := [CDo (CRel (E := EQ) (M := Empty_set) REq 0 0) (fun _ => CDone (X := unit)); CDo (CRel REq 0 0) (fun _ => CDone)]).
  pose (Cm := touch_cmps (ex_cmps false false)).
  pose (C0 := cstart (flatTP EQ) Cm Empty_set unit none (fun _ => h) (c_init 5) cs).
  assert (Hn : exists n, match sched (interleave n n) C0 with Some C => next_mut C 0 = Some 0 /\ next_mut C 1 = Some 0 | None => False end).
  { destruct h; try done; [exists 4|exists 4]; vm_compute; split; reflexivity. }
  destruct Hn as [n Hs].
  destruct (sched (interleave n n) C0) as [C|] eqn:HC; [|destruct Hs]. destruct Hs as [N0 N1]. apply sched_steps in HC.
  exists (flatTP EQ), (flat_cls EQ), Cm, (ex_spec false false), (c_init 5), (c_vars 5), cs, C.
  split; [apply C54_ex_shareable|]. split; [apply touch_compares, C53_ex_compares|]. split; [apply ex_alloc|]. split; [by apply ex_copy|].
  split; [by apply c_held|]. split; [|split; [exact HC|exact (next_mut_race C 0 1 0 ltac:(lia) N0 N1)]].
  intros [|[|i]] c Hi; [| |done]; injection Hi as <-; (split; [|split; [done|done]]);
    (split; [done|]; split; [done|]; unfold view_of, c_vars; rewrite map_filter_singleton_True by (by left); split; by eexists).
Qed.
Print Assumptions C54_const_needed.
