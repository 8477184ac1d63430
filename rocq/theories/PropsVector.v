(** * Wrappers as elements of containers: the theorems.

    Elements are named by numbers; [held K hs s m]: the memory [s] consists exactly of the
    elements [m], each a wrapper of header [hs x] in state [m !! x] (type and value, or valueless;
    allocator), over any value type that keeps its contract ([Honest T K], Contract.v). *)

From stdpp Require Import base gmap list.
From Verif Require Import Lang Common Client Spec Rep RunLemmas Headers Hist Tree TreeProps Ex
  Contract ContractProps ContractNode ContractClient Vector VectorProps.

(** ** C51: growing *)

(** If the move constructor is declared noexcept (always in polymorphic_cxx14.h, for allocators
    that are always equal in the others), reallocation cannot throw, touches no value (no
    block of memory is changed, made or freed), and every element keeps its value, its allocator
    and its address: the pointer it holds is the one the old element held. *)
Theorem C51_grow_moves_partial {E : Env} (T : TP E) (K : Cls E) (HO : Honest T K)
    (Hrefl : forall a, a_eqb E a a = true) (hs : nat -> header) l m (s : store E) :
  held K hs s m -> room K hs m l -> (forall x y, (x, y) ∈ l -> always_equal E = true \/ hs x = HPoly14) ->
  exists s' m', run (grow T hs l) s = ORet tt s' /\ held K hs s' m' /\ regrown K eq l m m' /\
    blocks s' = blocks s /\ exts s' = exts s /\ forall x y, (x, y) ∈ l -> wraps s' !! WVar x = wraps s !! WVar y.
Proof. intros Hh Hr Hn. apply grow_moves; try done. intros x y Hxy. unfold nothrow_move. destruct (Hn x y Hxy) as [-> | ->]; by destruct (hs x). Qed.
Print Assumptions C51_grow_moves_partial.

(** Else every value is copied; if a copy or an allocation throws, nothing has changed and nothing
    leaks. *)
Theorem C51_grow_copies {E : Env} (T : TP E) (K : Cls E) (HO : Honest T K) (hs : nat -> header) l m (s : store E) :
  held K hs s m -> room K hs m l -> (forall x y, (x, y) ∈ l -> always_equal E = false /\ hs x <> HPoly14) ->
  match run (grow T hs l) s with
  | ORet _ s' => exists m', held K hs s' m' /\ exts s' = exts s /\ regrown K (fun k k' => copied K (a_soccc E k.2) k k') l m m'
  | OThrow _ s' => blocks s' = blocks s /\ wraps s' = wraps s /\ exts s' = exts s
  | _ => False
  end.
Proof.
  intros Hh Hr Hn. assert (Hn' : forall x y, (x, y) ∈ l -> nothrow_move E (hs x) = false).
  { intros x y Hxy. unfold nothrow_move. destruct (Hn x y Hxy) as [-> Hp]. by destruct (hs x). }
  assert (G := grow_copies T K HO hs l m s Hh Hr Hn').
  destruct (run _ s) as [u s'|e s'| |]; [done|by destruct G|done|done].
Qed.
Print Assumptions C51_grow_copies.

(** ** C51: erasing *)

(** If neighbours have equal allocators, erasing cannot throw: the values close up, the erased one
    is destroyed, and the last element is gone. *)
Theorem C51_erase {E : Env} (T : TP E) (K : Cls E) (HO : Honest T K) (HA : AllocReq E)
    (Hrefl : forall a, a_eqb E a a = true) (hs : nat -> header) l x k ks m (s : store E) :
  held K hs s m -> NoDup (x :: l) -> Forall (fun y => hs y = hs x) l ->
  m !! x = Some k -> Forall2 (fun y k => m !! y = Some k) l ks -> one_allocator K k ks ->
  exists s' m', run (erase T hs x l) s = ORet tt s' /\ held K hs s' m' /\
    Forall2 (fun y k => m' !! y = Some k) (take (length l) (x :: l)) (closed_up K k ks) /\
    m' !! (List.last l x) = None /\ (forall z, z ∉ x :: l -> m' !! z = m !! z).
Proof. by apply erase_run. Qed.
Print Assumptions C51_erase.

(** ** C51: exchanging *)

(** Any sequence of exchanges permutes the values without touching one: no block of memory is
    changed, made or freed. *)
Theorem C51_exchange {E : Env} (T : TP E) (K : Cls E) (HA : AllocReq E) (hs : nat -> header) l m (s : store E) :
  held K hs s m -> pairs K hs m l ->
  exists s' m', run (exchange T hs l) s = ORet tt s' /\ held K hs s' m' /\ blocks s' = blocks s /\
    forall z, m' !! z = with_value K (m !! z) (m !! exchanges l z).
Proof. by apply exchange_run. Qed.
Print Assumptions C51_exchange.

(** ** Examples and a witness *)

(** Two elements with values 5 and 6 and allocator 1, and the environment's answers [O]. *)
Definition el_block {f} (h : header) (l : loc) (v : nat) : block (exEnv f) :=
  mkB (E := exEnv f) 1 (kbty (header_cls h) 0) (khdr (header_cls h) 0 l) (OLive (E := exEnv f) 0 v).
Definition two_store {f} (h : header) (O : list resp) : store (exEnv f) :=
  mkS {[ 0 := el_block h 0 5; 1 := el_block h 1 6 ]} {[ WVar 0 := mkW (E := exEnv f) (PLoc 0) 1; WVar 1 := mkW (E := exEnv f) (PLoc 1) 1 ]} ∅ O [].
Definition two {f} : gmap nat (option (ty * c_val (flat_cls (exEnv f))) * eA (exEnv f)) :=
  {[ 0 := (Some (0, 5), 1); 1 := (Some (0, 6), 1) ]}.

Lemma two_held f h O : held (flat_cls (exEnv f)) (fun _ => h) (two_store h O) two.
Proof.
  set (E := exEnv f).
  exists (fun x => match x with 0 => {[ 0 := el_block (f := f) h 0 5 ]} | 1 => {[ 1 := el_block (f := f) h 1 6 ]} | _ => ∅ end),
    (fun x => match x with 0 => {[ WVar 0 := mkW (E := E) (PLoc 0) 1 ]} | 1 => {[ WVar 1 := mkW (E := E) (PLoc 1) 1 ]} | _ => ∅ end).
  split.
  - intros [|[|x]]; unfold two.
    + rewrite lookup_insert. exists 0, (el_block (f := f) h 0 5), 5, ∅, ∅. done.
    + rewrite lookup_insert_ne, lookup_singleton by done. exists 1, (el_block (f := f) h 1 6), 6, ∅, ∅. done.
    + rewrite lookup_insert_ne, lookup_singleton_ne by done. done.
  - intros [|[|x]]; cbn; [|..|apply map_empty_subseteq].
    + apply map_singleton_subseteq_l. by rewrite lookup_insert.
    + apply map_singleton_subseteq_l. by rewrite lookup_insert_ne, lookup_singleton.
  - intros [|[|x]]; cbn; [|..|apply map_empty_subseteq].
    + apply map_singleton_subseteq_l. by rewrite lookup_insert.
    + apply map_singleton_subseteq_l. by rewrite lookup_insert_ne, lookup_singleton.
  - intros [|[|x]] [|[|y]] Hne; try done; try apply map_disjoint_empty_l; try apply map_disjoint_empty_r;
      apply map_disjoint_singleton_l; by rewrite lookup_singleton_ne.
  - intros [|[|x]] [|[|y]] Hne; try done; try apply map_disjoint_empty_l; try apply map_disjoint_empty_r;
      apply map_disjoint_singleton_l; by rewrite lookup_singleton_ne.
  - intros l [b Hb]. cbn [two_store blocks] in Hb. apply lookup_insert_Some in Hb as [[<- _]|[_ Hb]]; [exists 0; rewrite lookup_singleton; by eexists|].
    apply lookup_singleton_Some in Hb as [<- _]. exists 1. rewrite lookup_singleton. by eexists.
  - intros l [b Hb]. cbn [two_store wraps] in Hb. apply lookup_insert_Some in Hb as [[<- _]|[_ Hb]]; [exists 0; rewrite lookup_singleton; by eexists|].
    apply lookup_singleton_Some in Hb as [<- _]. exists 1. rewrite lookup_singleton. by eexists.
Qed.

Lemma two_room f h : room (flat_cls (exEnv f)) (fun _ => h) two [(2, 0); (3, 1)].
Proof.
  split; [by apply (bool_decide_unpack _); vm_compute|by apply (bool_decide_unpack _); vm_compute|..|done];
    intros x y [[= -> ->]|[[= -> ->]|[]%elem_of_nil]%elem_of_cons]%elem_of_cons; done.
Qed.
Lemma el_honest f : f_nc f = false -> Honest (flatTP (exEnv f)) (flat_cls (exEnv f)).
Proof. intros Hf. apply flat_honest. intros t a v. cbn. by rewrite Hf. Qed.
Lemma el_refl f a : a_eqb (exEnv f) a a = true.
Proof. cbn. rewrite Nat.eqb_refl. apply orb_true_r. Qed.

Definition ex_throws {E : Env} {X} (o : outcome E X) : bool := match o with OThrow _ _ => true | _ => false end.

(** The draft declares the move constructors noexcept.  In three headers they are not, unless all
    allocators are equal, though they cannot throw (C46_move): so for the other allocators growing copies,
    and can fail. *)
Theorem C51_grow_refuted h : h <> HPoly14 ->
  exists (E : Env) (T : TP E) (K : Cls E), Honest T K /\ AllocReq E /\ (forall a, a_eqb E a a = true) /\
  exists m (s : store E), held K (fun _ => h) s m /\ room K (fun _ => h) m [(2, 0); (3, 1)] /\
    exists e s', run (grow T (fun _ => h) [(2, 0); (3, 1)]) s = OThrow e s'.
Proof.
  intros Hh. set (f := Fl false false false false true false).
  exists (exEnv f), (flatTP (exEnv f)), (flat_cls (exEnv f)). split; [by apply el_honest|]. split; [apply ex_alloc|]. split; [apply el_refl|].
  exists two, (two_store h (replicate 2 (RespOk 7) ++ [RespFail 3])). split; [apply two_held|]. split; [apply two_room|].
  assert (G : ex_throws (run (grow (flatTP (exEnv f)) (fun _ => h) [(2, 0); (3, 1)]) (two_store h (replicate 2 (RespOk 7) ++ [RespFail 3]))) = true).
  { destruct h; [vm_compute; reflexivity..|by destruct Hh]. }
  destruct (run _ _) as [u s'|e s'| |]; [discriminate G|by exists e, s'|discriminate G..].
Qed.
Print Assumptions C51_grow_refuted.

Example C51_ex_nothrow h : forall x y : nat, (x, y) ∈ [(2, 0); (3, 1)] -> always_equal (exEnv (Fl false false false true true false)) = true \/ h = HPoly14.
Proof. by left. Qed.
Example C51_ex_pairs f h : pairs (flat_cls (exEnv f)) (fun _ => h) two [(0, 1); (1, 0)].
Proof.
  split; [|done|..]; intros x y.
  - intros [[= -> ->]|[[= -> ->]|[]%elem_of_nil]%elem_of_cons]%elem_of_cons; done.
  - intros [[= -> ->]|[[= -> ->]|[]%elem_of_nil]%elem_of_cons]%elem_of_cons; split; by eexists.
  - intros kx ky [[= -> ->]|[[= -> ->]|[]%elem_of_nil]%elem_of_cons]%elem_of_cons [= <-] [= <-] _; apply (el_refl f 1).
Qed.
Example C51_ex_one f (h : header) : NoDup [0; 1] /\ Forall (fun y : nat => h = h) [1] /\
  one_allocator (flat_cls (exEnv f)) (Some (0, 5), 1) [(Some (0, 6), 1)].
Proof.
  split; [by apply (bool_decide_unpack _); vm_compute|]. split; [by repeat constructor|]. split; [apply (el_refl f 1)|done].
Qed.

(** What is left: the elements, and the value and address of what each owns. *)
Definition ex_elements {f} (o : outcome (exEnv f) unit) : option (list (wl * option (loc * nat)) * nat) :=
  match o with
  | ORet _ s => Some (map (fun '(w, q) => (w, match w_p q with
        | PLoc l => match blocks s !! l with Some b => match b_obj b with OLive _ v => Some (l, v) | _ => None end | None => None end
        | _ => None end)) (map_to_list (wraps s)), size (blocks s))
  | _ => None
  end.
Example C51_ex_runs :
  map (fun h =>
    let f := Fl false false false true true false in
    (ex_elements (f := f) (run (grow (flatTP (exEnv f)) (fun _ => h) [(2, 0); (3, 1)]) (two_store h [])),
     ex_elements (f := f) (run (erase (flatTP (exEnv f)) (fun _ => h) 0 [1]) (two_store h [])),
     ex_elements (f := f) (run (exchange (flatTP (exEnv f)) (fun _ => h) [(0, 1)]) (two_store h [])))) [HInd20; HInd14; HPoly20; HPoly14] =
  replicate 4 (Some ([(WVar 3, Some (1, 6)); (WVar 2, Some (0, 5))], 2),
    Some ([(WVar 0, Some (1, 6))], 1),
    Some ([(WVar 0, Some (1, 6)); (WVar 1, Some (0, 5))], 2)).
Proof. vm_compute. reflexivity. Qed.
