(** * C++14 against C++20: the theorems. *)

From stdpp Require Import base gmap list.
From Verif Require Import Lang Common Client Spec SpecRun Rep Effect RunLemmas Refine Headers Hist
  OpSpec OpProps OpProps2 ClientProps Poly14 HeaderProps Ex.

(** ** C35 *)

(** indirect: every program, from every store, for every value type (recursive ones included). *)
Theorem C35_indirect {E : Env} (T : TP E) (c : client E) s :
  run_client (indirect14 T) c s = run_client (indirect20 T) c s.
Proof. by rewrite indirect14_same. Qed.
Print Assumptions C35_indirect.

(** polymorphic: results, exceptions, log and final store are the same for every program that does not
    ([ok14]) use the initializer_list constructor for a type other than T, nor, with POCCA, the
    allocator-extended move constructor with an unequal allocator, nor moves an object whose
    allocator is unequal to itself. *)
Theorem C35_polymorphic_partial {E : Env} (HA : AllocReq E) (c : client E) X O :
  safe_with code_polymorphic ok14 c (mkSpec ∅ X) ->
  run_client (polymorphic14 (flatTP E)) c (init X O) = run_client (polymorphic20 (flatTP E)) c (init X O).
Proof. intros Hs. apply (poly14_client_same HA); [apply init_inv|by rewrite init_abs]. Qed.
Print Assumptions C35_polymorphic_partial.

(** Most operations are the same function outright: any store, any value type. *)
Theorem C35_polymorphic_same_code {E : Env} (T : TP E) (o : op E) s :
  (match o with OIlist _ t _ | OIlistA _ _ t _ => t = tT E | OMove _ _ | OMoveA _ _ _ => False | _ => True end) ->
  run (interp (polymorphic14 T) o) s = run (interp (polymorphic20 T) o) s.
Proof. destruct o; simpl; try done; by intros ->. Qed.
Print Assumptions C35_polymorphic_same_code.

(** Without the exclusion it is false: each of the three cases distinguishes the headers. *)
Definition differ {E : Env} (c : client E) : Prop :=
  safe code_polymorphic c (mkSpec ∅ ∅) /\
  outcomes (run_client (polymorphic14 (flatTP E)) c (init ∅ [])) <>
  outcomes (run_client (polymorphic20 (flatTP E)) c (init ∅ [])).

Theorem C35_refuted :
  exists (E : Env) (c1 c2 : client E), AllocReq E /\ (forall a, a_eqb E a a = true) /\ differ c1 /\ differ c2.
Proof.
  set (f := Fl true false false false true false).
  exists (exEnv f),
    (script [OIlist (E := exEnv f) v0 3 (num 5); OGet v0]),
    (script [mk (f := f) v0 1 5; OMoveA (E := exEnv f) v1 2 v0; OValueless v0]).
  split; [apply ex_alloc|]. split; [intros a; apply Nat.eqb_refl|].
  unfold differ. split_and!; try (by apply script_safe; vm_compute); by vm_compute.
Qed.
Print Assumptions C35_refuted.

Example C35_case f : script_ok code_polymorphic ok14 (tour Poly f) (mkSpec ∅ ∅) = true.
Proof. exact (tour_ok HPoly14 f). Qed.

(** ** C36 *)

(** The two constructors taking an initializer_list. *)
Definition ilist_ctor {E : Env} (o : op E) (x : wl) (a : eA E) (t : ty) (g : carg E) : Prop :=
  o = OIlist x t g /\ a = a_default E \/ o = OIlistA x a t g.

(** C++20 *)
Theorem C36_requested_type {E : Env} (HA : AllocReq E) (s : store E) o x a t g r s' :
  reachable HPoly20 s -> ilist_ctor o x a t g -> pre code_polymorphic o (abs s) = true ->
  run (interp (polymorphic20 (flatTP E)) o) s = ORet r s' ->
  exists l v, owns s' x l t v a.
Proof.
  intros Hr%(reachable_inv HA) Ho Hpre H. eapply (ilist_type HA HPoly20); eauto.
Qed.
Print Assumptions C36_requested_type.

(** C++14: the object always is a T, whatever was requested. *)
Theorem C36_cxx14_partial {E : Env} (HA : AllocReq E) (s : store E) o x a t g r s' :
  reachable HPoly14 s -> ilist_ctor o x a t g -> pre code_polymorphic o (abs s) = true ->
  run (interp (polymorphic14 (flatTP E)) o) s = ORet r s' ->
  exists l v, owns s' x l (tT E) v a.
Proof. intros Hr%(reachable_inv HA) Ho Hpre H. eapply ilist_type14; eauto. Qed.
Print Assumptions C36_cxx14_partial.

(** From every reachable state in which nothing fails: *)
Theorem C36_cxx14_wrong_type {E : Env} (HA : AllocReq E) (s : store E) x t c :
  reachable HPoly14 s -> absent s x -> t <> tT E ->
  (forall e, RespFail e ∉ orc s) ->
  exists s' l v, run (interp (polymorphic14 (flatTP E)) (OIlist x t (GArgs c))) s = ORet ObsUnit s' /\
    owns s' x l (tT E) v (a_default E) /\ forall l' v' a', ~ owns s' x l' t v' a'.
Proof. intros Hr%(reachable_inv HA). by apply ilist_wrong_type. Qed.
Print Assumptions C36_cxx14_wrong_type.

Theorem C36_refuted :
  exists (E : Env) (s s' : store E) t l v, AllocReq E /\ reachable HPoly14 s /\ t <> tT E /\
    run (interp (polymorphic14 (flatTP E)) (OIlist v4 t (GArgs (c_empty E)))) s = ORet ObsUnit s' /\
    owns s' v4 l (tT E) v (a_default E) /\ forall l' v' a', ~ owns s' v4 l' t v' a'.
Proof.
  set (f := Fl false false false false true false).
  destruct (C36_cxx14_wrong_type (ex_alloc f) (demo_store HPoly14 f []) v4 3 (c_empty (exEnv f)))
    as (s' & l & v & H1 & H2 & H3).
  - apply demo_reachable.
  - apply (demo_absent HPoly14 f).
  - done.
  - intros e. by vm_compute; apply not_elem_of_nil.
  - exists (exEnv f), (demo_store HPoly14 f []), s', 3, l, v. split; [apply ex_alloc|].
    split; [apply demo_reachable|]. split; [discriminate|]. exact (conj H1 (conj H2 H3)).
Qed.
Print Assumptions C36_refuted.

Example C36_case f :
  ilist_ctor (E := exEnv f) (OIlist v4 1 (num 5)) v4 (a_default (exEnv f)) 1 (num 5) /\
  pre code_polymorphic (OIlist v4 1 (num (f := f) 5)) (abs (demo_store HPoly20 f [])) = true /\
  owns (after1 (polymorphic20 (flatTP (exEnv f))) (OIlist v4 1 (num (f := f) 5)) (demo_store HPoly20 f []))
     v4 3 1 1005 (a_default (exEnv f)) /\
  owns (after1 (polymorphic14 (flatTP (exEnv f))) (OIlist v4 1 (num (f := f) 5)) (demo_store HPoly14 f []))
     v4 3 0 5 (a_default (exEnv f)).
Proof. split; [by left|]. by destruct f as [[] [] [] [] [] []]; vm_compute. Qed.
