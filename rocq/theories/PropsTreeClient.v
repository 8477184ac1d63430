(** * Client programs over nested values: the theorems.

    A client (TreeClient.v) has wrapper objects of any of the four classes as variables and
    operates on them and, through [operator->], on the wrapper objects anywhere inside their
    values.  The specification of an operation is its effect on a forest: a map from
    variables to trees.  [holds F s]: the store [s] consists of the representation of the
    trees of [F], no more and no less, without sharing.

    Hypotheses: see PropsTree.v.  [at_most m c]: the client performs at most [m] operations
    (m is arbitrary; it only serves to choose the recursion depth of the model of the value
    type's special members in advance).  [tsafe c F]: the client respects the preconditions. *)

From stdpp Require Import base gmap list.
From Verif Require Import Lang Common Client Spec Rep RunLemmas Headers Hist Draft Tree TreeProps TreeAssign TreeAssignC
  TreeMove TreeMoveAssign TreeSub TreeEx TreeClient TreePlace TreeForest TreeOps TreeStep TreeScope TreeCalm Ex.

Section spec.
Context {E : Env} (Sh : Shape E).
Notation A := (eA E).
Notation wst := (option (tree E) * A)%type.
Notation forest := (gmap nat (header * wst)).
Implicit Types F : forest.

Lemma forest_fits F : exists d, all_fit d F.
Proof.
  induction F as [|x [h k] F Hx [d IH]] using map_ind.
  - exists 0. apply map_Forall_empty.
  - destruct k as [[T|] a].
    + exists (d + depth T). apply insert_fits; [eapply all_fit_le; [|exact IH]; lia|]. cbn.
      eapply fits_mono; [|apply fits_depth]. lia.
    + exists d. apply insert_fits; [done|apply fits_none].
Qed.

Lemma holds_empty_inv s : holds Sh ∅ s -> blocks s = ∅ /\ wraps s = ∅.
Proof.
  intros H. unfold holds in H. inversion H as [|x h k F B1 W1 B2 W2 Hx Hw HF' DB DW EF]; [done|].
  exfalso. assert (HE : (<[x := (h, k)]> F : forest) !! x = None) by (rewrite EF; apply lookup_empty).
  by rewrite lookup_insert in HE.
Qed.

(** The variables an operation names. *)
Definition names (o : top (E := E)) : list nat :=
  match o with
  | TMake x _ _ _ c => x :: omap (fun w => match w with WVar y => Some y | WMem _ _ => None end) (k_args Sh c)
  | TCopy x π | TCopyA x _ π | TMove x π | TMoveA x _ π => [x; pl_var π]
  | TDestroy x _ => [x]
  | TAssignC π ρ | TAssignM π ρ | TSwap π ρ => [pl_var π; pl_var ρ]
  | TMutate π _ | TGet π | TValueless π | TAlloc π => [pl_var π]
  end.
(** The client never names [x]. *)
Fixpoint avoids (x : nat) (c : tclient (E := E)) : Prop :=
  match c with
  | TDone => True
  | TDo o next => x ∉ names o /\ forall r, avoids x (next r)
  end.

Lemma put_place_other F π k x : x <> pl_var π -> put_place F π k !! x = F !! x.
Proof. intros Hx. unfold put_place. by rewrite lookup_alter_ne. Qed.

Lemma step_local F o r F' x : tstep Sh F o r F' -> x ∉ names o -> F' !! x = F !! x.
Proof.
  intros Hst Hx. destruct r as [ob|e]; cbn in Hst.
  - destruct o; cbn in Hst, Hx; rewrite ?elem_of_cons, ?elem_of_nil in Hx.
    all: repeat match type of Hst with
         | context [mbind _ (at_place ?S ?F ?p)] => destruct (at_place S F p) as [?k|]; [cbn in Hst|done]
         | context [match at_place ?S ?F ?p with _ => _ end] => destruct (at_place S F p) as [[[[? ? ?]|] ?]|]; [|done|done]
         end; simplify_eq.
    + rewrite lookup_insert_ne by naive_solver. apply args_moved_ne. intros Hin. apply Hx. right.
      apply elem_of_list_omap. by exists (WVar x).
    + rewrite lookup_insert_ne by naive_solver. done.
    + rewrite lookup_insert_ne by naive_solver. done.
    + rewrite lookup_insert_ne by naive_solver. apply put_place_other. naive_solver.
    + rewrite lookup_insert_ne by naive_solver. apply put_place_other. naive_solver.
    + rewrite lookup_delete_ne by naive_solver. done.
    + case_decide; [done|]. apply put_place_other. naive_solver.
    + case_decide; [done|]. rewrite !put_place_other by naive_solver. done.
    + rewrite !put_place_other by naive_solver. done.
    + apply put_place_other. naive_solver.
    + done.
    + done.
    + done.
  - destruct o; cbn in Hst, Hx; rewrite ?elem_of_cons, ?elem_of_nil in Hx; try done; try congruence.
    + destruct Hst as (T & T' & b & _ & _ & _ & ->). apply put_place_other. naive_solver.
    + destruct Hst as (_ & k & k' & d & _ & _ & _ & ->). apply put_place_other. naive_solver.
    + destruct Hst as (k & T & T' & b & _ & _ & _ & _ & _ & ->). apply put_place_other. naive_solver.
Qed.

Lemma path_local c F outs F' x : tpath Sh c F outs F' -> avoids x c -> F' !! x = F !! x.
Proof.
  revert F outs. induction c as [|o next IH]; intros F [|r outs]; cbn; try done; [by intros -> _|].
  intros (F1 & Hst & Hp) [Hx Hav]. rewrite (IH r F1 outs Hp (Hav r)). by eapply step_local.
Qed.

Lemma path_det c F outs outs' F1 F2 :
  tpath Sh c F outs F1 -> tpath Sh c F outs' F2 ->
  (forall r, r ∈ outs -> exists x, r = inl x) -> (forall r, r ∈ outs' -> exists x, r = inl x) ->
  outs = outs' /\ F1 = F2.
Proof.
  revert F outs outs'. induction c as [|o next IH]; intros F [|r outs] [|r' outs']; cbn; try done.
  { by intros -> ->. }
  intros (G1 & Hst & Hp) (G2 & Hst' & Hp') Hall Hall'.
  destruct (Hall r) as [x ->]; [left|]. destruct (Hall' r') as [x' ->]; [left|].
  cbn in Hst, Hst'. rewrite Hst in Hst'. injection Hst' as <- <-.
  assert (HI := IH _ _ _ _ Hp Hp'). feed specialize HI.
  - intros r Hr. apply Hall. by right.
  - intros r Hr. apply Hall'. by right.
  - destruct HI as [-> ->]. done.
Qed.

Lemma no_ends c F : pocma E = false -> ~ tends Sh c F.
Proof.
  intros Hm. revert F. induction c as [|o next IH]; intros F; cbn; [by intros []|].
  intros [Ht|(r & F1 & _ & H)]; [|by eapply IH]. destruct o; try done. destruct Ht as [Ht _]. congruence.
Qed.
End spec.

Section theorems.
Context {E : Env} (Sh : Shape E) (HS : ShapeReq Sh) (HFix : Fixed Sh) (HA : AllocReq E) (Hrefl : forall a, a_eqb E a a = true).
Notation A := (eA E).
Notation wst := (option (tree E) * A)%type.
Notation forest := (gmap nat (header * wst)).
Implicit Types F : forest.

(** Every client that respects the preconditions, whatever throws: no undefined behaviour;
    every result and every state is one the specification allows, and memory holds exactly
    the trees of the specification; the program can be terminated only where the
    specification says so. *)
Theorem C42_client m c F :
  at_most m c -> tsafe Sh c F -> exists N, forall n s, N <= n -> holds Sh F s ->
  match run_tclient Sh n c s with
  | HOk outs s' => exists F', tpath Sh c F outs F' /\ holds Sh F' s'
  | HTerm => tends Sh c F
  | HUB _ => False
  end.
Proof.
  intros Hm Hs. destruct (forest_fits F) as [d Hd]. exists (S (depth_after m d)). intros n s Hn H.
  by eapply (client_ok Sh HS HFix HA Hrefl m c F s d n).
Qed.

(** Termination is possible only in allocators that propagate on move assignment. *)
Theorem C42_no_termination m c F :
  pocma E = false -> at_most m c -> tsafe Sh c F -> exists N, forall n s, N <= n -> holds Sh F s ->
  exists outs s' F', run_tclient Sh n c s = HOk outs s' /\ tpath Sh c F outs F' /\ holds Sh F' s'.
Proof.
  intros Hp Hm Hs. destruct (C42_client m c F Hm Hs) as [N HN]. exists N. intros n s Hn H.
  specialize (HN n s Hn H). destruct (run_tclient Sh n c s) as [outs s'|u|]; [|done|].
  - destruct HN as (F' & ? & ?). by exists outs, s', F'.
  - by apply no_ends in HN.
Qed.

(** No leak: a client that started from nothing and at the end has destroyed its variables
    leaves no allocated block, and no wrapper object. *)
Theorem C42_no_leak m c :
  at_most m c -> tsafe Sh c ∅ -> (forall outs F', tpath Sh c ∅ outs F' -> F' = ∅) ->
  exists N, forall n s, N <= n -> blocks s = ∅ -> wraps s = ∅ ->
  match run_tclient Sh n c s with
  | HOk outs s' => blocks s' = ∅ /\ wraps s' = ∅
  | HTerm => pocma E = true
  | HUB _ => False
  end.
Proof.
  intros Hm Hs Hend. destruct (C42_client m c ∅ Hm Hs) as [N HN]. exists N. intros n s Hn HB HW.
  specialize (HN n s Hn). feed specialize HN. { eapply holds_eq; [constructor|done|done]. }
  destruct (run_tclient Sh n c s) as [outs s'|u|]; [|done|].
  - destruct HN as (F' & Hp & H'). rewrite (Hend _ _ Hp) in H'. by apply (holds_empty_inv Sh).
  - destruct (pocma E) eqn:Hp; [done|]. by apply no_ends in HN.
Qed.

(** No action at a distance: a variable the client does not name keeps its value, all levels of it,
    whatever the client does with other variables and their parts. *)
Theorem C42_unnamed m c F x h k :
  at_most m c -> tsafe Sh c F -> F !! x = Some (h, k) -> avoids Sh x c ->
  exists N, forall n s, N <= n -> holds Sh F s ->
  match run_tclient Sh n c s with
  | HOk outs s' => exists B W, wrap_heap Sh h (WVar x) k B W /\ B ⊆ blocks s' /\ W ⊆ wraps s'
  | HTerm => pocma E = true
  | HUB _ => False
  end.
Proof.
  intros Hm Hs Hx Hav. destruct (C42_client m c F Hm Hs) as [N HN]. exists N. intros n s Hn H.
  specialize (HN n s Hn H). destruct (run_tclient Sh n c s) as [outs s'|u|]; [|done|].
  - destruct HN as (F' & Hp & H'). rewrite <- (path_local Sh c F outs F' x Hp Hav) in Hx.
    destruct (forest_take Sh F' _ _ x h k H' Hx) as (B & W & R & S & Hw & _ & -> & -> & _).
    exists B, W. split_and!; [done|apply sub_l|apply sub_l].
  - destruct (pocma E) eqn:Hp; [done|]. by apply no_ends in HN.
Qed.

(** Values, not addresses: two runs that start from representations of the same trees,
    wherever these are in memory, and in which nothing throws, give the same results. *)
Theorem C42_determined m c F :
  at_most m c -> tsafe Sh c F -> exists N, forall n n' s1 s2 outs1 s1' outs2 s2', N <= n -> N <= n' ->
  holds Sh F s1 -> holds Sh F s2 ->
  run_tclient Sh n c s1 = HOk outs1 s1' -> run_tclient Sh n' c s2 = HOk outs2 s2' ->
  (forall r, r ∈ outs1 -> exists x, r = inl x) -> (forall r, r ∈ outs2 -> exists x, r = inl x) ->
  outs1 = outs2 /\ exists F', holds Sh F' s1' /\ holds Sh F' s2'.
Proof.
  intros Hm Hs. destruct (C42_client m c F Hm Hs) as [N HN]. exists N.
  intros n n' s1 s2 outs1 s1' outs2 s2' Hn Hn' H1 H2 R1 R2 A1 A2.
  assert (G1 := HN n s1 Hn H1). rewrite R1 in G1. destruct G1 as (F1 & P1 & K1).
  assert (G2 := HN n' s2 Hn' H2). rewrite R2 in G2. destruct G2 as (F2 & P2 & K2).
  destruct (path_det Sh c F _ _ _ _ P1 P2 A1 A2) as [-> <-]. split; [done|]. by exists F1.
Qed.

(** In an environment that does not fail (no allocation, construction or assignment of the
    values' own data throws) nothing throws, nothing terminates the program, and the results
    are the results of the specification, which then is a function ([path_det]). *)
Theorem C42_nothrow m c F :
  at_most m c -> tsafe Sh c F -> exists N, forall n s, N <= n -> holds Sh F s -> (forall e, RespFail e ∉ orc s) ->
  exists outs s' F', run_tclient Sh n c s = HOk outs s' /\ tpath Sh c F outs F' /\ holds Sh F' s' /\
    (forall r, r ∈ outs -> exists x, r = inl x) /\
    forall outs' F'', tpath Sh c F outs' F'' -> (forall r, r ∈ outs' -> exists x, r = inl x) -> outs' = outs /\ F'' = F'.
Proof.
  intros Hm Hs. destruct (C42_client m c F Hm Hs) as [N HN]. exists N. intros n s Hn H Ho.
  specialize (HN n s Hn H). pose proof (client_calm Sh n c s Ho) as Hc.
  destruct (run_tclient Sh n c s) as [outs s'|u|]; [|done|done].
  destruct HN as (F' & Hp & H'). exists outs, s', F'. split_and!; [done|done|done|apply Hc|].
  intros outs' F'' Hp' Hall. by eapply (path_det Sh c F); [exact Hp'|exact Hp|exact Hall|apply Hc].
Qed.

(** Scopes: straight-line code over nested values with automatic variables.  Whatever
    throws, wherever: no undefined behaviour, and after the variables have been destroyed
    no allocated block and no wrapper object is left. *)
Theorem C42_scope ops :
  chain Sh ops ∅ -> exists N, forall n s, N <= n -> blocks s = ∅ -> wraps s = ∅ ->
  match run_tclient Sh n (scope ops []) s with
  | HOk outs s' => blocks s' = ∅ /\ wraps s' = ∅
  | HTerm => pocma E = true
  | HUB _ => False
  end.
Proof.
  intros Hc. apply (C42_no_leak (2 * length ops) (scope ops [])).
  - apply scope_most. cbn. lia.
  - apply scope_safe; [|done]. split; [constructor|]. intros x. cbn. by rewrite !lookup_empty.
  - intros outs F'. apply scope_end; [|done]. split; [constructor|]. intros x. cbn. by rewrite !lookup_empty.
Qed.
End theorems.
Print Assumptions C42_client.
Print Assumptions C42_no_termination.
Print Assumptions C42_no_leak.
Print Assumptions C42_unnamed.
Print Assumptions C42_determined.
Print Assumptions C42_nothrow.
Print Assumptions C42_scope.

(** ** Concrete clients

    The value type of [indirect] is a pair of polymorphic members.  The polymorphic
    values are leaves (type 1, no member) or hold one [indirect] (any other type). *)
Definition mixShape (f : flags) (hi hp : header) : Shape (exEnv f) :=
  mkShape (E := exEnv f) (fun t _ => match t with 0 => 2 | 1 => 0 | _ => 1 end) (fun t _ => match t with 0 => hp | _ => hi end)
    (fun c : nat => if Nat.ltb c 20 then [] else if Nat.ltb c 40 then [WVar (c - 20)] else [WVar (c - 40); WVar (c - 39)]).
Lemma mix_req f hi hp : ShapeReq (mixShape f hi hp).
Proof. by split. Qed.
Lemma mix_fixed f hi hp : Fixed (mixShape f hi hp).
Proof. done. Qed.

Section mix.
Context (f : flags) (hi hp : header).
Let E := exEnv f.
Let var x h := Pl x h [].
(** [v1], [v2] are leaves, moved into the pair [v3]; [v4] is a copy of [v3], changed in its
    left leaf, moved into [v5]; then assignments, moves and swaps between the parts, also of a
    whole to a part of itself and of parts with themselves. *)
Definition mix_tour : list (top (E := E)) :=
  [ TMake (E := E) 1 hp 1 1 5; TMake (E := E) 2 hp 1 1 6; TMake (E := E) 3 hi 1 0 41;
    TValueless (var 1 hp); TCopy 4 (var 3 hi);
    TMutate (E := E) (Pl 4 hi [(0, hp)]) (Nat.add 2); TGet (Pl 3 hi [(0, hp)]); TGet (Pl 4 hi [(0, hp)]);
    TMake (E := E) 5 hp 1 2 24; TGet (Pl 5 hp [(0, hi); (1, hp)]);
    TSwap (Pl 3 hi [(0, hp)]) (Pl 3 hi [(1, hp)]); TGet (Pl 3 hi [(0, hp)]);
    TAssignC (Pl 5 hp [(0, hi); (1, hp)]) (Pl 5 hp [(0, hi); (0, hp)]); TGet (Pl 5 hp [(0, hi); (1, hp)]);
    TAssignC (Pl 5 hp [(0, hi); (1, hp)]) (var 5 hp); TGet (Pl 5 hp [(0, hi); (1, hp); (0, hi); (1, hp)]);
    TAssignC (var 3 hi) (var 3 hi); TAssignM (Pl 3 hi [(0, hp)]) (Pl 3 hi [(0, hp)]); TSwap (Pl 3 hi [(1, hp)]) (Pl 3 hi [(1, hp)]);
    TAssignC (var 3 hi) (Pl 5 hp [(0, hi)]); TGet (Pl 3 hi [(0, hp)]); TGet (Pl 5 hp [(0, hi); (0, hp)]);
    TMove 6 (Pl 5 hp [(0, hi); (0, hp)]); TValueless (Pl 5 hp [(0, hi); (0, hp)]);
    TDestroy 1 hp; TCopyA (E := E) 7 3 (var 5 hp); TAlloc (Pl 7 hp [(0, hi)]);
    TMoveA (E := E) 8 3 (Pl 7 hp [(0, hi)]); TAssignM (var 2 hp) (Pl 3 hi [(1, hp)]); TGet (var 2 hp) ].
End mix.

Definition ind (b : bool) : header := if b then HInd20 else HInd14.
Definition pol (b : bool) : header := if b then HPoly20 else HPoly14.

(** All preconditions are met, with all combinations of the traits and of the headers. *)
Example mix_chain f b b' : chain (mixShape f (ind b) (pol b')) (mix_tour f (ind b) (pol b')) ∅.
Proof. apply chainb_ok. by destruct f as [[] [] [] [] [] []], b, b'; vm_compute. Qed.

(** So the theorem applies: *)
Example mix_scope f b b' : exists N, forall n s, N <= n -> blocks s = ∅ -> wraps s = ∅ ->
  match run_tclient (mixShape f (ind b) (pol b')) n (scope (mix_tour f (ind b) (pol b')) []) s with
  | HOk outs s' => blocks s' = ∅ /\ wraps s' = ∅
  | HTerm => f_ma f = true
  | HUB _ => False
  end.
Proof.
  apply (C42_scope _ (mix_req _ _ _) (mix_fixed _ _ _) (ex_alloc f) (ex_refl f)), mix_chain.
Qed.

(** The run, with an environment in which nothing throws: what the observers returned
    (booleans as numbers, values without the part that encodes the type). *)
Definition seen {f} (r : hres (exEnv f)) : list nat :=
  match r with
  | HOk outs _ => omap (fun o : obs (exEnv f) + exn => match o with
                                 | inl (ObsVal t v) => Some ((v : nat) - 1000 * t)
                                 | inl (ObsBool b) => Some (if b then 1 else 0)
                                 | inl (ObsAlloc a) => Some (a : nat)
                                 | _ => None
                                 end) outs
  | _ => []
  end.
Definition thrown {E} (r : hres E) : nat :=
  match r with HOk outs _ => length (omap (fun o => match o with inr e => Some e | inl _ => None end) outs) | _ => 0 end.
Definition left {E} (r : hres E) : option (nat * nat) :=
  match r with HOk _ s => Some (size (blocks s), size (wraps s)) | _ => None end.
Definition mix_run f b b' (O : list resp) : hres (exEnv f) :=
  run_tclient (mixShape f (ind b) (pol b')) 8 (scope (mix_tour f (ind b) (pol b')) []) (mkS ∅ ∅ ∅ O []).

Example mix_observed ca ae asg b b' :
  let r := mix_run (Fl ca false true ae asg false) b b' (replicate 99 (RespOk 0)) in
  thrown r = 0 /\ left r = Some (0, 0) /\ seen r = [1; 5; 7; 6; 6; 7; 7; 7; 7; 1; 21; 24].
Proof. by destruct ca, ae, asg, b, b'; vm_compute. Qed.

(** With the [i]-th request to the environment failing: one exception, nothing left. *)
Example mix_faults ca asg b b' :
  let f := Fl ca false true false asg false in
  forallb (fun i => let r := mix_run f b b' (replicate i (RespOk 0) ++ RespFail 7 :: replicate 99 (RespOk 0)) in
                    Nat.eqb (thrown r) 1 && bool_decide (left r = Some (0, 0))) (seq 0 24) = true.
Proof. by destruct ca, asg, b, b'; vm_compute. Qed.
