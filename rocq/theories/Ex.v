(** * A concrete environment and concrete clients, for the examples beside the theorems
    and for the witnesses of refutations. *)

From stdpp Require Import base gmap list.
From Verif Require Import Lang Client Spec SpecRun Rep RunLemmas Headers Hist Draft Poly14.

(** Flags: the three propagation traits, always_equal, assignable T, and [f_nc].
    Allocators are numbered arenas; values are numbers.
    - [f_ae]: all allocators equal (one resource);
    - copying selects allocator number + 10;
    - constructing from an rvalue leaves 0 behind, or 77 if it throws;
    - a failed assignment leaves 55 in the target;
    - [f_nc]: constructing from a non-const lvalue leaves 99 in the source. *)
Record flags := Fl { f_ca : bool; f_ma : bool; f_sw : bool; f_ae : bool; f_asg : bool; f_nc : bool }.

Definition exEnv (f : flags) : Env := {|
  eA := nat; eV := nat; eC := nat;
  a_eqb := fun a b => f_ae f || Nat.eqb a b;
  a_res := fun a => if f_ae f then 0 else a;
  a_soccc := fun a => a + 10;
  a_default := 0;
  pocca := f_ca f; pocma := f_ma f; pocs := f_sw f; always_equal := f_ae f;
  tT := 0;
  t_assignable := f_asg f;
  c_empty := 0;
  t_make := fun t a c => c + 1000 * t;
  t_cons := fun c t t' a v =>
    (v, match c with ConstL => v | NonConstL => if f_nc f then 99 else v | RVal => 0 end);
  t_cons_fail := fun c t t' v =>
    match c with ConstL => v | NonConstL => if f_nc f then 98 else v | RVal => 77 end;
  t_asgn_args := fun t v c => c;
  t_asgn_args_fail := fun t v c => 55;
  t_asgn := fun c t t' v0 v => (v, match c with RVal => 0 | _ => v end);
  t_asgn_fail := fun c t t' v0 v => (55, match c with RVal => 77 | _ => v end);
  t_self := fun c t v => v;
  t_self_fail := fun c t v => 55;
|}.

Lemma ex_alloc f : AllocReq (exEnv f).
Proof.
  split; simpl.
  - intros a b H. destruct (f_ae f); [done|]. simpl in H. by apply Nat.eqb_eq.
  - intros Hf a b. by rewrite Hf.
Qed.

Lemma ex_copy f : f_nc f = false -> CopyReq (exEnv f).
Proof. intros Hf. split; intros; simpl; by rewrite Hf. Qed.

(** ** Clients that stop at the first exception *)
Fixpoint script {E} (h : list (op E)) : client E :=
  match h with
  | [] => CDone
  | o :: h' => CDo o (fun r => match r with inl _ => script h' | inr _ => CDone end)
  end.

(** Decision procedure for [safe_with] on scripts. *)
Fixpoint script_ok {E} (F : cfg) (ad : op E -> spec E -> bool) (h : list (op E)) (σ : spec E) : bool :=
  match h with
  | [] => true
  | o :: h' =>
      pre F o σ && ad o σ &&
      match step F o σ with Some res => script_ok F ad h' (r_ok res) | None => false end
  end.

Lemma script_safe {E} F ad (h : list (op E)) σ :
  script_ok F ad h σ = true -> safe_with F ad (script h) σ.
Proof.
  revert σ. induction h as [|o h IH]; intros σ H; simpl; [done|].
  simpl in H. apply andb_true_iff in H as [H H3]. apply andb_true_iff in H as [H1 H2].
  split; [done|]. split; [done|]. intros res Hres. rewrite Hres in H3. split; [by apply IH|done].
Qed.

(** A reachable store from a script that runs without exceptions. *)
Lemma script_reachable {E} (HA : AllocReq E) h (sc : list (op E)) X O outs s :
  script_ok (header_cfg h) (adm h) sc (mkSpec ∅ X) = true ->
  run_client (header_impl h) (script sc) (init X O) = HOk outs s ->
  reachable h s.
Proof. intros H1 H2. exists (script sc), X, O, outs. split; [by apply script_safe|done]. Qed.

(** The final store of a client. *)
Definition final {E} (r : hres E) : store E :=
  match r with HOk _ s => s | _ => mkS ∅ ∅ ∅ [] [] end.
Definition finished {E} (r : hres E) : bool := match r with HOk _ _ => true | _ => false end.

Lemma final_reachable {E} h (sc : list (op E)) X O :
  script_ok (header_cfg h) (adm h) sc (mkSpec ∅ X) = true ->
  finished (run_client (header_impl h) (script sc) (init X O)) = true ->
  reachable h (final (run_client (header_impl h) (script sc) (init X O))).
Proof.
  intros H1 H2. exists (script sc), X, O.
  destruct (run_client (header_impl h) (script sc) (init X O)) as [outs s| |] eqn:Hr; try done.
  exists outs. split; [by apply script_safe|done].
Qed.

Notation v0 := (WVar 0).
Notation v1 := (WVar 1).
Notation v2 := (WVar 2).
Notation v3 := (WVar 3).
Notation v4 := (WVar 4).

(** Four objects: [v0] (5, allocator 1), [v1] (6, allocator 2), [v2] (7, allocator
    1), [v3] valueless with allocator 2. *)
Definition num {f} (n : nat) : carg (exEnv f) := GArgs (E := exEnv f) n.

(** An object made from a number with the given allocator. *)
Definition mk {f} (x : wl) (a n : nat) : op (exEnv f) := OValueA (E := exEnv f) x a 0 (num n).

Definition demo f : list (op (exEnv f)) :=
  [ mk v0 1 5; mk v1 2 6; mk v2 1 7; mk v3 2 8; OMove v4 v3; ODestroy v4 ].

(** The store after running [demo], the environment then answering with [O]. *)
Definition demo_store h f (O : list resp) : store (exEnv f) :=
  final (run_client (header_impl h) (script (demo f))
           (init ∅ (replicate 8 (RespOk 0) ++ O))).

Lemma demo_reachable h f O : reachable h (demo_store h f O).
Proof.
  apply final_reachable.
  - by destruct h, f as [[] [] [] [] [] []]; vm_compute.
  - by destruct h, f as [[] [] [] [] [] []]; vm_compute.
Qed.

Lemma demo_orc h f O : orc (demo_store h f O) = O.
Proof. by destruct h, f as [[] [] [] [] [] []]; vm_compute. Qed.

(** ** A client using every operation *)
Notation v5 := (WVar 5).
Notation v6 := (WVar 6).
Notation v7 := (WVar 7).
Notation v8 := (WVar 8).
Notation v9 := (WVar 9).

Definition tour (k : cls) f : list (op (exEnv f)) :=
  let E := exEnv f in
  [ OExtSet (E := E) 0 0 42; ODefault v0; ODefaultA (E := E) v1 1;
    OValue (E := E) v2 3 (num 5); OValueA (E := E) v3 1 3 (num 6);
    OInPlace (E := E) v4 2 (GExt RVal 0); OInPlaceA (E := E) v5 1 2 (GDeref ConstL v3);
    OIlist (E := E) v6 0 (num 8); OIlistA (E := E) v7 1 0 (num 9);
    OCopy v8 v2; OCopyA (E := E) v9 1 v2; OMove (WVar 10) v2; OMoveA (E := E) (WVar 11) 1 v3;
    OMoveA (E := E) (WVar 12) 1 v2;
    ODestroy v4; OAssignC v0 v1; OAssignC v1 v2; OAssignC v1 v6; OAssignM v6 v0; OAssignM v7 v7 ] ++
  match k with Ind => [ OAssignV v5 (num 3); OAssignV (E := E) v3 (GDeref RVal v8) ] | Poly => [] end ++
  [ OSwap v3 v9; OMutate (E := E) v7 S; OGet v7; OValueless v2; OGetAlloc v5 ] ++
  map ODestroy [v0; v1; v2; v3; v5; v6; v7; v8; v9; WVar 10; WVar 11; WVar 12].

Lemma tour_ok h f : script_ok (header_cfg h) (adm h) (tour (header_cls h) f) (mkSpec ∅ ∅) = true.
Proof. by destruct h, f as [[] [] [] [] [] []]; vm_compute. Qed.

(** Scripts under the translation of the C++14 initializer_list constructors. *)
Lemma script14 {E} (h : list (op E)) ad σ :
  safe_with code_polymorphic ad (script (map ilist14 h)) σ ->
  safe_with code_polymorphic ad (client14 (script h)) σ.
Proof.
  revert σ. induction h as [|o h IH]; intros σ; simpl; [done|].
  intros (H1 & H2 & H3). split; [done|]. split; [done|].
  intros res Hres. destruct (H3 res Hres) as [H4 H5]. split; [by apply IH|].
  intros e σ' Hin. done.
Qed.

Lemma tour14 f : safe_with code_polymorphic move14_ok (client14 (script (tour Poly f))) (mkSpec ∅ ∅).
Proof.
  apply script14, script_safe. by destruct f as [[] [] [] [] [] []]; vm_compute.
Qed.

Definition tour_end h f : store (exEnv f) :=
  final (run_client (header_impl h) (script (tour (header_cls h) f)) (init ∅ [])).

Lemma tour_check h f :
  finished (run_client (header_impl h) (script (tour (header_cls h) f)) (init ∅ [])) &&
  Nat.eqb (size (wraps (tour_end h f))) 0 && Nat.leb 40 (length (trc (tour_end h f))) = true.
Proof. by destruct h, f as [[] [] [] [] [] []]; vm_compute. Qed.

Lemma tour_end_ok h f :
  reachable h (tour_end h f) /\ wraps (tour_end h f) = ∅ /\ 40 <= length (trc (tour_end h f)).
Proof.
  pose proof (tour_check h f) as H. apply andb_true_iff in H as [H H3]. apply andb_true_iff in H as [H1 H2].
  split; [by apply final_reachable; [apply tour_ok|]|].
  apply Nat.eqb_eq in H2. apply map_size_empty_iff in H2. apply Nat.leb_le in H3. done.
Qed.

(** Clients that go on after exceptions. *)
Fixpoint hist_ok {E} (F : cfg) (ad : op E -> spec E -> bool) (h : list (op E)) (σ : spec E) : bool :=
  match h with
  | [] => true
  | o :: h' =>
      pre F o σ && ad o σ &&
      match step F o σ with
      | Some res => hist_ok F ad h' (r_ok res) && forallb (hist_ok F ad h') (r_exn res)
      | None => false
      end
  end.

Lemma hist_safe {E} F ad (h : list (op E)) σ :
  hist_ok F ad h σ = true -> safe_with F ad (history h) σ.
Proof.
  revert σ. induction h as [|o h IH]; intros σ H; simpl; [done|].
  simpl in H. apply andb_true_iff in H as [H H3]. apply andb_true_iff in H as [H1 H2].
  split; [done|]. split; [done|]. intros res Hres. rewrite Hres in H3.
  apply andb_true_iff in H3 as [H3 H4]. split; [by apply IH|].
  intros e σ' Hin. apply IH. rewrite forallb_forall in H4. apply H4. by apply elem_of_list_In.
Qed.

Lemma hist_reachable {E} h (sc : list (op E)) X O :
  hist_ok (header_cfg h) (adm h) sc (mkSpec ∅ X) = true ->
  finished (run_client (header_impl h) (history sc) (init X O)) = true ->
  reachable h (final (run_client (header_impl h) (history sc) (init X O))).
Proof.
  intros H1 H2. exists (history sc), X, O.
  destruct (run_client (header_impl h) (history sc) (init X O)) as [outs s| |] eqn:Hr; try done.
  exists outs. split; [by apply hist_safe|done].
Qed.

(** What the operations of a client returned or threw. *)
Definition outcomes {E} (r : hres E) : list (obs E + exn) := match r with HOk outs _ => outs | _ => [] end.

(** The state after one operation that returns nothing. *)
Definition returns {E} (out : outcome E (obs E)) : bool := match out with ORet ObsUnit _ => true | _ => false end.
Definition after1 {E} (I : impl E) (o : op E) (s : store E) : store E := final (run_client I (script [o]) s).

Lemma run_after1 {E} (I : impl E) (o : op E) (s : store E) :
  returns (run (interp I o) s) = true -> run (interp I o) s = ORet ObsUnit (after1 I o s).
Proof.
  unfold after1. simpl. by destruct (run (interp I o) s) as [[] s'| | |].
Qed.

Lemma demo_absent h f O : view (demo_store h f O) !! v4 = None.
Proof. by destruct h, f as [[] [] [] [] [] []]; vm_compute. Qed.
