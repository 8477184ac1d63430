(** * Threads: the theorems.

    For each of the four headers, every reachable store, every allocation of the objects to
    threads, every schedule and every behaviour of the environment. *)

From stdpp Require Import base gmap list relations.
From Verif Require Import Lang Client Spec SpecRun Rep RunLemmas Headers Hist Draft Conc ConcStatic
  ConcExec ConcProps Ex.

(** ** C34: const operations may run concurrently *)

(** Threads that are const on shared objects and otherwise use their own: no data race, and
    nothing undefined. *)
Theorem C34_no_race {E : Env} (HA : AllocReq E) (HC : CopyReq E) h (O : owners) (s : store E) cs C :
  reachable h s -> clients_ok h O s cs -> csteps (start h s cs) C -> ~ race C /\ ~ undefined C.
Proof.
  intros Hr Hc Hs. pose proof (reachable_inv HA h s Hr) as HI.
  destruct (steps_inv HC h O s cs _ _ _ (start_inv HA HC h O s HI cs Hc) Hs) as [L HL].
  split; [by eapply inv_no_race|by eapply inv_no_undefined].
Qed.
Print Assumptions C34_no_race.

(** Each thread's operations return, throw and call the allocator and value type as if the
    thread ran alone, with the objects it can see and some behaviour of the environment. *)
Theorem C34_results {E : Env} (HA : AllocReq E) (HC : CopyReq E) h (O : owners) (s : store E) cs C i outs tr :
  reachable h s -> clients_ok h O s cs -> csteps (start h s cs) C ->
  c_threads C !! i = Some (Ret outs, tr) ->
  exists c u s', cs !! i = Some c /\
    run_client (header_impl h) c (set_orc u (local O i s)) = HOk outs s' /\ trc s' = tr /\
    (forall w, ow O w = Some i -> c_wraps C !! w = wraps s' !! w) /\
    (forall n, ox O n = Some i -> c_exts C !! n = exts s' !! n) /\
    blocks s' ⊆ c_blocks C.
Proof.
  intros Hr Hc Hs Hi. pose proof (reachable_inv HA h s Hr) as HI.
  destruct (steps_inv HC h O s cs _ _ _ (start_inv HA HC h O s HI cs Hc) Hs) as [L HL].
  destruct (inv_result h O s cs _ _ _ _ _ HL Hi) as (c & u & H1 & H2 & H3).
  pose proof (ci_thread _ _ _ _ _ _ HL _ _ _ Hi) as HT.
  exists c, u, (set_orc [] (L i)). split_and!; [done|done|done| | |apply HT].
  - intros w Hw. symmetry. by apply HT.
  - intros n Hn. symmetry. by apply HT.
Qed.
Print Assumptions C34_results.

(** Shared objects are not modified at any time: neither the wrapper nor the object it owns. *)
Theorem C34_shared_unchanged {E : Env} (HA : AllocReq E) (HC : CopyReq E) h (O : owners) (s : store E) cs C :
  reachable h s -> clients_ok h O s cs -> csteps (start h s cs) C ->
  (forall w, ow O w = None -> c_wraps C !! w = wraps s !! w) /\
  (forall w a l, ow O w = None -> wraps s !! w = Some (mkW (PLoc l) a) -> c_blocks C !! l = blocks s !! l) /\
  (forall n, ox O n = None -> c_exts C !! n = exts s !! n).
Proof.
  intros Hr Hc Hs. pose proof (reachable_inv HA h s Hr) as HI.
  destruct (steps_inv HC h O s cs _ _ _ (start_inv HA HC h O s HI cs Hc) Hs) as [L HL].
  split_and!; [apply HL| |apply HL].
  intros w a l Hw Hl. apply (ci_b _ _ _ _ _ _ HL). apply elem_of_locs. exists w, (mkW (PLoc l) a).
  by rewrite Hw.
Qed.
Print Assumptions C34_shared_unchanged.

(** When all threads are done, the store is as after a sequential program: the ownership
    invariant holds, and every object has the state its thread's client leaves it in
    according to the specification. *)
Theorem C34_join {E : Env} (HA : AllocReq E) (HC : CopyReq E) h (O : owners) (s : store E) cs C :
  reachable h s -> clients_ok h O s cs -> (forall w i, ow O w = Some i -> i < length cs) ->
  csteps (start h s cs) C -> all_done C ->
  Inv (header_cls h) (whole C) /\
  (forall w, ow O w = None -> sv (abs (whole C)) !! w = sv (abs s) !! w) /\
  forall i c, cs !! i = Some c ->
    exists outs tr σ, c_threads C !! i = Some (Ret outs, tr) /\
      spec_run (header_cfg h) c (abs (local O i s)) outs σ /\
      forall w, ow O w = Some i -> sv (abs (whole C)) !! w = sv σ !! w.
Proof.
  intros Hr Hc Ho Hs Hd. pose proof (reachable_inv HA h s Hr) as HI.
  destruct (steps_inv HC h O s cs _ _ _ (start_inv HA HC h O s HI cs Hc) Hs) as [L HL].
  destruct (join_inv HA h O s HI cs C L Hc Ho HL Hd) as (H1 & _ & H3). split; [done|]. split.
  - intros w Hw. unfold abs, abs_spec. simpl. rewrite !lookup_absv, H3, Hw. done.
  - intros i c Hi.
    destruct (lookup_lt_is_Some_2 (c_threads C) i) as [[p tr] Hp].
    { rewrite (ci_len _ _ _ _ _ _ HL). by eapply lookup_lt_Some. }
    destruct (Hd _ _ _ Hp) as [outs ->].
    destruct (inv_result h O s cs _ _ _ _ _ HL Hp) as (c' & u & Hc' & _ & Hrun). simplify_eq.
    exists outs, tr, (abs (L i)). split; [done|].
    pose proof (client_correct HA _ _ _ c (set_orc u (local O i s)) (header_implements HA h)
                  (local_inv O _ i s HI)) as H.
    rewrite Hrun in H. destruct H as [_ H].
    { eapply safe_with_mono; [|exact (Hc i c Hi)]. intros o σ. by intros [? _]%andb_true_iff. }
    split; [exact H|]. intros w Hw. unfold abs, abs_spec. simpl. rewrite !lookup_absv, H3, Hw. done.
Qed.
Print Assumptions C34_join.

(** Two threads on the demonstration state: both copy the shared [v0], and modify their own
    objects. *)
Definition demoO : owners :=
  mkO (fun w => match w with WVar 1 | WVar 4 => Some 0 | WVar 2 | WVar 5 => Some 1 | _ => None end)
      (fun _ => None).

Definition demo_scripts f : list (list (op (exEnv f))) :=
  [ [ OCopy v4 v0; OAssignC v1 v0; OGet v0; OMutate (E := exEnv f) v1 S; OGet v1 ];
    [ OCopy v5 v0; OSwap v2 v2; OAssignC v2 v3; ODestroy v5; OGet v0 ] ].
Definition demo_threads f : list (client (exEnv f)) := script <$> demo_scripts f.

Lemma scripts_ok {E : Env} h O (s : store E) (l : list (list (op E))) :
  (forall i sc, l !! i = Some sc ->
     script_ok (header_cfg h) (fun o σ => adm h o σ && confined O i o) sc (abs (local O i s)) = true) ->
  clients_ok h O s (script <$> l).
Proof.
  intros H i c Hc. apply list_lookup_fmap_Some in Hc as (sc & Hsc & ->). by apply script_safe, H.
Qed.

(** Alternating schedules. *)
Fixpoint alternate (n m : nat) : list nat :=
  match n, m with
  | S n, S m => 0 :: 1 :: alternate n m
  | _, _ => replicate n 0 ++ replicate m 1
  end.

Definition result {E} (C : option (config E (list (obs E + exn)))) (i : nat) : option (list (obs E + exn)) :=
  match C with
  | Some C => match c_threads C !! i with Some (Ret outs, _) => Some outs | _ => None end
  | None => None
  end.

Example C34_case h f :
  clients_ok h demoO (demo_store h f []) (demo_threads f) /\
  (forall w i, ow demoO w = Some i -> i < length (demo_threads f)).
Proof.
  split.
  - apply scripts_ok. intros [|[|i]] sc Hc; [| |done]; injection Hc as <-;
      by destruct h, f as [[] [] [] [] [] []]; vm_compute.
  - intros [[|[|[|[|[|[|n]]]]]]|l i'] i; simpl; intros; simplify_eq; lia.
Qed.

(** Some schedule runs both threads to their end. *)
Fixpoint todo {E : Env} {Z} (fuel : nat) (C : config E Z) (i : nat) : nat :=
  match fuel with
  | 0 => 0
  | S fuel => match sched [i] C with Some C' => S (todo fuel C' i) | None => 0 end
  end.

Definition demo_flags := Fl true true true false true false.
Definition saw (n : nat) : obs (exEnv demo_flags) + exn := inl (ObsVal (E := exEnv demo_flags) 0 n).

Example C34_case_runs :
  let C := start HPoly20 (demo_store HPoly20 demo_flags []) (demo_threads demo_flags) in
  let is := alternate (todo 200 C 0) (todo 200 C 1) in
  result (sched is C) 0 = Some [ inl ObsUnit; inl ObsUnit; saw 5; inl ObsUnit; saw 6 ] /\
  result (sched is C) 1 = Some [ inl ObsUnit; inl ObsUnit; inl ObsUnit; inl ObsUnit; saw 5 ].
Proof. vm_compute. split; reflexivity. Qed.

(** The requirement that copying does not modify the source is needed: the copy
    constructor of [polymorphic] copies through a non-const lvalue. *)
Theorem C34_needs_copy_requirement :
  exists (E : Env) (O : owners) (s : store E) (cs : list (client E)) (C : config E (list (obs E + exn))),
    AllocReq E /\ reachable HPoly20 s /\ clients_ok HPoly20 O s cs /\
    csteps (start HPoly20 s cs) C /\ race C.
Proof.
  pose (f := Fl false false false false true true).
  pose (cs := script <$> [ [OCopy (E := exEnv f) v4 v0]; [OCopy (E := exEnv f) v5 v0] ]).
  assert (Hs : exists is C, sched is (start HPoly20 (demo_store HPoly20 f []) cs) = Some C /\
    next_src C 0 = Some (RBlk 0, 5, 99) /\ next_src C 1 = Some (RBlk 0, 5, 99)).
  { exists (alternate 8 8).
    destruct (sched (alternate 8 8) (start HPoly20 (demo_store HPoly20 f []) cs)) as [C|] eqn:HC.
    - exists C. split; [done|].
      assert (match sched (alternate 8 8) (start HPoly20 (demo_store HPoly20 f []) cs) with
              | Some C => next_src C 0 = Some (RBlk 0, 5, 99) /\ next_src C 1 = Some (RBlk 0, 5, 99)
              | None => False end) as H by (vm_compute; split; reflexivity).
      by rewrite HC in H.
    - assert (match sched (alternate 8 8) (start HPoly20 (demo_store HPoly20 f []) cs) with
              | Some _ => true | None => false end = true) as H by (vm_compute; reflexivity).
      by rewrite HC in H. }
  destruct Hs as (is & C & HC & H0 & H1).
  exists (exEnv f), demoO, (demo_store HPoly20 f []), cs, C. split_and!.
  - apply ex_alloc.
  - apply demo_reachable.
  - apply scripts_ok. intros [|[|i]] sc Hc; [| |done]; injection Hc as <-; by vm_compute.
  - by eapply sched_steps.
  - by eapply (next_src_race C 0 1).
Qed.
Print Assumptions C34_needs_copy_requirement.
