(** * Comparing and hashing nested values: the theorems.

    The class T has a value and a fixed number of [indirect] members and compares memberwise;
    its operators call those of [indirect], which call its own, to any depth.
    [holds s h w k]: in the store [s] the [indirect] object [w] of header [h] owns the tree [k]. *)

From stdpp Require Import base gmap list.
From Verif Require Import Lang Common Client Spec Rep RunLemmas Headers Hist Compare CompareProps Draft Tree TreeProps TreeAssign
  TreeSub TreeObs TreeEx TreeEq TreeEqProps TreeEqLaws Ex PropsTree.

Section theorems.
Context {E : Env} (Sh : Shape E) (HF : Fixed Sh).
Notation V := (eV E).
Notation wst := (option (tree E) * eA E)%type.
Implicit Types s : store E.

(** All members of T are [indirect] objects, of either header. *)
Definition indirect_members : Prop := forall i, header_cls (k_hdr Sh (tT E) i) = Ind.
Definition holds s (h : header) (w : wl) (k : wst) : Prop :=
  exists B W, wrap_heap Sh h w k B W /\ B ⊆ blocks s /\ W ⊆ wraps s.

(** [x == y] is defined, whatever is valueless and wherever; it is true exactly if the two
    hold equal data (or are both valueless) at every path.  [x != y] is its negation. *)
Theorem C43_equal (d : V -> V -> bool) s n h x y k k' :
  indirect_members -> header_cls h = Ind -> placed_all Sh s ->
  holds s h x k -> holds s h y k' -> fits n k.1 -> fits n k'.1 ->
  exists b, deep_eq Sh s (fun v v' => VOk (d v v')) n h x y = VOk b /\
    deep_ne Sh s (fun v v' => VOk (d v v')) n h x y = VOk (negb b) /\
    (b = true <-> forall p, agree d (obs s x p) (obs s y p)).
Proof.
  intros HK Hh HP H1 H2 F1 F2. exists (same_w d k k').
  destruct (deep_eq_at Sh HK d HF s n h x y k k' Hh H1 H2 F1 F2) as [-> ->].
  split_and!; [done|done|]. destruct H1 as (B & W & H1 & HB & HW), H2 as (B' & W' & H2 & HB' & HW').
  rewrite (same_look d n) by done. apply forall_proper. intros p.
  by rewrite (obs_heap Sh p h x k B W s HP H1 HB HW), (obs_heap Sh p h y k' B' W' s HP H2 HB' HW'), !look_seen.
Qed.

(** [==] is an equivalence relation on nested values if it is one on the data. *)
Theorem C43_equivalence (d : V -> V -> bool) s n h x y z k1 k2 k3 :
  indirect_members -> header_cls h = Ind ->
  holds s h x k1 -> holds s h y k2 -> holds s h z k3 -> fits n k1.1 -> fits n k2.1 -> fits n k3.1 ->
  (forall v, d v v = true) -> (forall v v', d v v' = true -> d v' v = true) ->
  (forall u v w, d u v = true -> d v w = true -> d u w = true) ->
  let eq := deep_eq Sh s (fun v v' => VOk (d v v')) n h in
  eq x x = VOk true /\ (eq x y = VOk true -> eq y x = VOk true) /\
  (eq x y = VOk true -> eq y z = VOk true -> eq x z = VOk true).
Proof.
  intros HK Hh H1 H2 H3 F1 F2 F3 R S T eq. unfold eq.
  assert (HE : forall x y k k', holds s h x k -> holds s h y k' -> fits n k.1 -> fits n k'.1 ->
    deep_eq Sh s (fun v v' => VOk (d v v')) n h x y = VOk true <-> same_w d k k' = true).
  { intros x0 y0 k k' G1 G2 G3 G4. rewrite (proj1 (deep_eq_at Sh HK d HF s n h _ _ k k' Hh G1 G2 G3 G4)). split; [by injection 1|by intros ->]. }
  rewrite (HE x x k1 k1), (HE x y k1 k2), (HE y x k2 k1), (HE y z k2 k3), (HE x z k1 k3) by done.
  by apply (same_equiv d n).
Qed.

(** Equal nested values have equal hashes, if equal data have; the hash is always defined. *)
Theorem C43_hash (d : V -> V -> bool) (hv : V -> N) mix s n h x y k k' :
  indirect_members -> header_cls h = Ind ->
  holds s h x k -> holds s h y k' -> fits n k.1 -> fits n k'.1 ->
  (forall v v', d v v' = true -> hv v = hv v') ->
  deep_eq Sh s (fun v v' => VOk (d v v')) n h x y = VOk true ->
  exists N, deep_hash Sh s (fun v => VOk (hv v)) mix n h x = VOk N /\ deep_hash Sh s (fun v => VOk (hv v)) mix n h y = VOk N.
Proof.
  intros HK Hh H1 H2 F1 F2 Hd He.
  rewrite (proj1 (deep_eq_at Sh HK d HF s n h _ _ k k' Hh H1 H2 F1 F2)) in He. injection He as He.
  exists (hash_w hv mix k). rewrite (deep_hash_at Sh HK hv mix s n h x k), (deep_hash_at Sh HK hv mix s n h y k') by done.
  by rewrite (same_hash d hv mix n Hd k k' F1 F2 He).
Qed.

(** [x <=> y] (C++20) is decided by the first difference in pre-order: a node's data before its members,
    members in order; a valueless member is less than one with a value. *)
Theorem C43_order (c : V -> V -> ordering) s n x y k k' :
  (forall i, k_hdr Sh (tT E) i = HInd20) -> placed_all Sh s ->
  holds s HInd20 x k -> holds s HInd20 y k' -> fits n k.1 -> fits n k'.1 ->
  exists o, deep_tw Sh s (fun v v' => VOk (c v v')) n HInd20 x y = VOk o /\ first_difference c (obs s x) (obs s y) o.
Proof.
  intros HK HP H1 H2 F1 F2. exists (order_w c k k').
  split; [apply deep_tw_at; [done|done|done|done..]|].
  destruct H1 as (B & W & H1 & HB & HW), H2 as (B' & W' & H2 & HB' & HW').
  assert (O1 : forall p, obs s x p = look k p) by (intros p; by rewrite (obs_heap Sh p _ x k B W s HP H1 HB HW), look_seen).
  assert (O2 : forall p, obs s y p = look k' p) by (intros p; by rewrite (obs_heap Sh p _ y k' B' W' s HP H2 HB' HW'), look_seen).
  pose proof (order_look c n k k' F1 F2) as H. destruct (order_w c k k'); cbn [first_difference] in *.
  2:{ intros p. by rewrite O1, O2. }
  all: destruct H as (p & Hp & Hq); exists p; rewrite O1, O2; (split; [done|]); intros q Hb; rewrite O1, O2; by apply Hq.
Qed.

(** Its laws: the converse is the opposite, it composes, and it agrees with [==], if those of the
    data do. *)
Theorem C43_order_laws (d : V -> V -> bool) (c : V -> V -> ordering) s n x y z k1 k2 k3 :
  (forall i, k_hdr Sh (tT E) i = HInd20) ->
  holds s HInd20 x k1 -> holds s HInd20 y k2 -> holds s HInd20 z k3 -> fits n k1.1 -> fits n k2.1 -> fits n k3.1 ->
  let tw := deep_tw Sh s (fun v v' => VOk (c v v')) n HInd20 in
  ((forall v v', c v' v = flip_ord (c v v')) -> tw y x = (o <- tw x y ; VOk (flip_ord o))%res) /\
  ((forall u v w o, comp (c u v) (c v w) = Some o -> c u w = o) ->
     forall o1 o2 o, tw x y = VOk o1 -> tw y z = VOk o2 -> comp o1 o2 = Some o -> tw x z = VOk o) /\
  ((forall v v', c v v' = Equiv <-> d v v' = true) ->
     tw x y = VOk Equiv <-> deep_eq Sh s (fun v v' => VOk (d v v')) n HInd20 x y = VOk true).
Proof.
  intros HK H1 H2 H3 F1 F2 F3 tw. unfold tw.
  assert (HK' : forall i, header_cls (k_hdr Sh (tT E) i) = Ind) by (intros i; by rewrite HK).
  rewrite (deep_tw_at Sh c HF s HK n x y k1 k2), (deep_tw_at Sh c HF s HK n y x k2 k1), (deep_tw_at Sh c HF s HK n y z k2 k3),
    (deep_tw_at Sh c HF s HK n x z k1 k3) by done.
  rewrite (proj1 (deep_eq_at Sh HK' d HF s n HInd20 x y k1 k2 eq_refl H1 H2 F1 F2)). split_and!.
  - intros Hc. cbn. by rewrite (order_flip c n Hc k1 k2).
  - intros Hc o1 o2 o E1 E2 E3. injection E1 as <-. injection E2 as <-. by rewrite (order_comp c n Hc k1 k2 k3 F1 F2 F3 o E3).
  - intros Hc. pose proof (order_same d c n Hc k1 k2 F1 F2) as [I1 I2]. split; [intros [= H]|intros [= H]]; by rewrite ?I1, ?I2.
Qed.

(** Whatever the data's operators do short of undefined behaviour, the nested operators have
    none, and every exception they throw is one of the data's. *)
Theorem C43_throw (deq : V -> V -> res bool) (dtw : V -> V -> res ordering) (dhash : V -> res N) mix s n h x y k k' :
  indirect_members -> header_cls h = Ind ->
  holds s h x k -> holds s h y k' -> fits n k.1 -> fits n k'.1 ->
  (forall v v', deq v v' <> VBad) -> (forall v v', dtw v v' <> VBad) -> (forall v, dhash v <> VBad) ->
  let ends := fun {X} (Q : exn -> Prop) (r : res X) => match r with VOk _ => True | VExn e => Q e | VBad => False end in
  ends (fun e => exists v v', deq v v' = VExn e) (deep_eq Sh s deq n h x y) /\
  ends (fun e => exists v v', deq v v' = VExn e) (deep_ne Sh s deq n h x y) /\
  ends (fun e => exists v, dhash v = VExn e) (deep_hash Sh s dhash mix n h x) /\
  (h = HInd20 -> (forall i, k_hdr Sh (tT E) i = HInd20) ->
     ends (fun e => exists v v', dtw v v' = VExn e) (deep_tw Sh s dtw n h x y)).
Proof.
  intros HK Hh H1 H2 F1 F2 He Ht Hv ends.
  destruct (deep_eq_fine Sh HK s (fun e => exists v v', deq v v' = VExn e) HF deq) with (n := n) (h := h) (w := x) (w' := y) (k := k) (k' := k') as [G1 G2]; try done.
  { intros v v'. specialize (He v v'). destruct (deq v v') eqn:Hd; cbn; [done|by exists v, v'|done]. }
  split_and!; [done|done| |].
  - eapply (deep_hash_fine Sh HK mix s (fun e => exists v, dhash v = VExn e)); try done.
    intros v. specialize (Hv v). destruct (dhash v) eqn:Hd; cbn; [done|by exists v|done].
  - intros -> HK20. eapply (deep_tw_fine Sh s (fun e => exists v v', dtw v v' = VExn e)); try done.
    intros v v'. specialize (Ht v v'). destruct (dtw v v') eqn:Hd; cbn; [done|by exists v, v'|done].
Qed.

(** A copy compares equal to its source, and hashes the same. *)
Theorem C43_copy (HS : ShapeReq Sh) (HV : CopyValue (E := E)) (d : V -> V -> bool) (hv : V -> N) mix s s' n h x y k u :
  indirect_members -> header_cls h = Ind -> placed_all Sh s -> wraps s !! WVar x = None ->
  holds s h y k -> fits n k.1 -> (forall v, d v v = true) ->
  run (i_copy (node_impl Sh n h) (WVar x) y) s = ORet u s' ->
  deep_eq Sh s' (fun v v' => VOk (d v v')) n h (WVar x) y = VOk true /\
  deep_hash Sh s' (fun v => VOk (hv v)) mix n h (WVar x) = deep_hash Sh s' (fun v => VOk (hv v)) mix n h y.
Proof.
  intros HK Hh HP Hx (B & W & Hy & HB & HW) Hf Hd Hr.
  pose proof (C37_copy Sh HS n h x y k B W s HP Hx Hy HB HW Hf) as HC. rewrite Hr in HC.
  destruct HC as (B' & W' & Hw & E1 & E2 & _ & D1 & D2).
  assert (G1 : holds s' h (WVar x) (copy_w k)).
  { exists B', W'. split_and!; [done|rewrite E1|rewrite E2]; apply map_union_subseteq_l. }
  assert (G2 : holds s' h y k).
  { exists B, W. split_and!; [done|rewrite E1|rewrite E2]; (etrans; [done|]); by apply map_union_subseteq_r. }
  assert (Hf' : fits n (copy_w k).1) by by apply copy_fits.
  assert (Hs : forall p, look (copy_w k) p = look k p).
  { intros p. rewrite <- (look_seen Sh h), <- (look_seen Sh h k). apply (sub_copy_path Sh HV). }
  assert (Hsame : forall d0, (forall v : V, d0 v v = true) -> same_w d0 (copy_w k) k = true).
  { intros d0 Hd0. apply (same_look d0 n); [done..|]. intros p. rewrite Hs. destruct (look k p) as [[[]|]|]; cbn; auto. }
  split.
  - rewrite (proj1 (deep_eq_at Sh HK d HF s' n h _ _ _ _ Hh G1 G2 Hf' Hf)). by rewrite Hsame.
  - rewrite (deep_hash_at Sh HK hv mix s' n h _ _ Hh G1 Hf'), (deep_hash_at Sh HK hv mix s' n h _ _ Hh G2 Hf).
    f_equal. apply (same_hash (fun v v' => N.eqb (hv v) (hv v')) hv mix n); [|done|done|].
    + by intros v v' ?%N.eqb_eq.
    + apply Hsame. intros v. apply N.eqb_refl.
Qed.
End theorems.
Print Assumptions C43_equal.
Print Assumptions C43_equivalence.
Print Assumptions C43_hash.
Print Assumptions C43_order.
Print Assumptions C43_order_laws.
Print Assumptions C43_throw.
Print Assumptions C43_copy.

(** ** A concrete case: four trees of up to six nodes; the second differs from the first in the
    data at the path 0, 0, 1, the third in having a valueless member there, the fourth has
    other allocators throughout. *)
Definition eq_tree (a : nat) (o : option (tree (exEnv exF))) : tree (exEnv exF) :=
  nd exF a 1 (Some (nd exF a 2 (Some (nd exF a 3 None o)) (Some (lf exF a 5)))) (Some (lf exF a 6)).
Definition eq_ks : list (option (tree (exEnv exF)) * nat) :=
  [(Some (eq_tree 1 (Some (lf exF 1 4))), 1); (Some (eq_tree 1 (Some (lf exF 1 7))), 1);
   (Some (eq_tree 1 None), 1); (Some (eq_tree 2 (Some (lf exF 2 4))), 2); (None, 1)].
Definition eq_store (h : header) : store (exEnv exF) :=
  let r := lays (layout (exShape exF h) 4) (fun _ => h) WVar 0 eq_ks 0 in mkS r.1.1 r.1.2 ∅ [] [].
Definition eqb_ok (v v' : nat) : res bool := VOk (Nat.eqb v v').

Example C43_ex_hyps h : header_cls h = Ind ->
  Fixed (exShape exF h) /\ indirect_members (exShape exF h) /\ placed_all (exShape exF h) (eq_store h) /\
  forall j k, eq_ks !! j = Some k -> holds (exShape exF h) (eq_store h) h (WVar j) k /\ fits 4 k.1.
Proof.
  intros Hh. destruct (lays_ok (exShape exF h) (layout (exShape exF h) 4) (fun _ => h) WVar eq_ks 0 0) as [Hm _].
  { intros k Hk h' w N Hs Hb. apply layout_ok; [|done|done].
    repeat (apply elem_of_cons in Hk as [->|Hk]; [cbn; repeat constructor|]). by apply elem_of_nil in Hk. }
  { intros j j' Hj. by simplify_eq. }
  { done. }
  { cbn. repeat split; done. }
  split_and!; [done|by intros i| |].
  - intros [m|l i] Hw; [done|]. by apply (mem_bound (exShape exF h) _ (fun j => j) _ _ _ _ Hm l i).
  - intros j k Hj. split; [by apply (mem_at (exShape exF h) (eq_store h) (fun _ => h) WVar 0 eq_ks _ _ Hm)|].
    apply elem_of_list_lookup_2 in Hj.
    repeat (apply elem_of_cons in Hj as [->|Hj]; [cbn; repeat constructor|]). by apply elem_of_nil in Hj.
Qed.

(** Rows: [==] of each pair, for both headers, and [<=>] of each pair. *)
Definition nat_c (v v' : nat) : res ordering := VOk (nat_tw v v').
Example C43_ex_values :
  let all := fun {X} (f : wl -> wl -> X) => map (fun i => map (fun j => f (WVar i) (WVar j)) [0; 1; 2; 3; 4]) [0; 1; 2; 3; 4] in
  let e := map (map VOk) [[true; false; false; true; false]; [false; true; false; false; false]; [false; false; true; false; false];
      [true; false; false; true; false]; [false; false; false; false; true]] in
  map (fun h => all (deep_eq (exShape exF h) (eq_store h) eqb_ok 4 h)) [HInd20; HInd14] = [e; e] /\
  all (deep_tw (exShape exF HInd20) (eq_store HInd20) nat_c 4 HInd20) =
    map (map VOk) [[Equiv; Less; Greater; Equiv; Greater]; [Greater; Equiv; Greater; Greater; Greater];
      [Less; Less; Equiv; Less; Greater]; [Equiv; Less; Greater; Equiv; Greater]; [Less; Less; Less; Less; Equiv]].
Proof. by vm_compute. Qed.
Example C43_ex_throw :
  (* the data's == throws on 4 *)
  let deq := fun v v' : nat => if Nat.eqb v 4 then VExn 9 else VOk (Nat.eqb v v') in
  let s := eq_store HInd14 in let eq := deep_eq (exShape exF HInd14) s deq 4 HInd14 in
  eq (WVar 0) (WVar 1) = VExn 9 /\ eq (WVar 0) (WVar 2) = VOk false /\ eq (WVar 0) (WVar 4) = VOk false.
Proof. by vm_compute. Qed.
Example C43_ex_copy h : header_cls h = Ind ->
  CopyValue (E := exEnv exF) /\ wraps (eq_store h) !! WVar 5 = None /\
  ends (run (i_copy (node_impl (exShape exF h) 4 h) (WVar 5) (WVar 1)) (eq_store h)) = 0.
Proof. intros Hh. split; [done|]. destruct h; try done; vm_compute; split; reflexivity. Qed.
