(** * Algorithms over ranges of wrappers: the theorems.

    [alg] (Algorithm.v): any code that compares, exchanges and moves elements, decides by the
    results, and uses temporaries.  [asafe]: it uses elements that exist and, with [keep], moves only onto what has
    been moved from, or an element onto itself, and lets nothing die that has a value, as sorting, rotating, partitioning, heaps
    do; without [keep] it may overwrite and destroy values, as removing and erasing do.  [aexec]: what the same
    algorithm does to plain values.  [vals_of m]: the values of the elements. *)

From stdpp Require Import base gmap list sorting.
From Verif Require Import Lang Common Client Spec Rep RunLemmas Headers Hist Tree TreeProps Ex Compare
  Contract ContractProps ContractNode ContractClient ContractUser ContractUserProps Vector VectorProps PropsVector
  ContractCompare ContractCompareProps PropsContractCompare Algorithm AlgorithmProps.

(** ** C55 *)

(** Any algorithm that keeps values does to the wrappers what it does to values, touching none of these: no block
    of memory is changed, made or freed.  The only exceptions are those of the value type's
    operators; also then no value is lost or doubled. *)
Theorem C55_algorithms {E : Env} (T : TP E) (K : Cls E) (HO : Honest T K) (C : Cmps E) (S : CmpSpec (c_val K)) (HC : Compares K C S)
    (HA : AllocReq E) (Hrefl : forall a, a_eqb E a a = true) (hs : nat -> header) A m (s : store E) :
  held K hs s m -> one_alloc K m -> asafe (cmp_vals K S hs) hs true A (vals_of K m) ->
  let ends s' res := exists m', aexec (cmp_vals K S hs) A (vals_of K m) res (vals_of K m') /\
    contents (vals_of K m') ≡ₚ contents (vals_of K m) /\ held K hs s' m' /\ blocks s' = blocks s /\ exts s' = exts s in
  match run (aprog T C hs A) s with
  | ORet _ s' => ends s' (inl tt)
  | OThrow e s' => ends s' (inr e)
  | _ => False
  end.
Proof.
  intros Hh Ho Hs. assert (G := alg_run T K HO C S HC HA Hrefl hs true A m s Hh Ho Hs). cbn in G |- *.
  destruct (run _ s) as [u s'|e s'| |]; [| |done|done]; destruct G as (m' & Hex & Hh' & _ & HB & HX); exists m'; (split; [done|]);
    (split; [by eapply alg_contents|]); (split; [done|]); (split; [by apply HB|done]).
Qed.
Print Assumptions C55_algorithms.

(** Any algorithm at all: values may be destroyed, with their memory, but the others are not
    touched: blocks of memory are only freed, and none of the values left is a copy. *)
Theorem C55_removing {E : Env} (T : TP E) (K : Cls E) (HO : Honest T K) (C : Cmps E) (S : CmpSpec (c_val K)) (HC : Compares K C S)
    (HA : AllocReq E) (Hrefl : forall a, a_eqb E a a = true) (hs : nat -> header) A m (s : store E) :
  held K hs s m -> one_alloc K m -> asafe (cmp_vals K S hs) hs false A (vals_of K m) ->
  let ends s' res := exists m', aexec (cmp_vals K S hs) A (vals_of K m) res (vals_of K m') /\
    contents (vals_of K m') ⊆+ contents (vals_of K m) /\ held K hs s' m' /\ blocks s' ⊆ blocks s /\ exts s' = exts s in
  match run (aprog T C hs A) s with
  | ORet _ s' => ends s' (inl tt)
  | OThrow e s' => ends s' (inr e)
  | _ => False
  end.
Proof.
  intros Hh Ho Hs. assert (G := alg_run T K HO C S HC HA Hrefl hs false A m s Hh Ho Hs). cbn in G |- *.
  destruct (run _ s) as [u s'|e s'| |]; [| |done|done]; destruct G as (m' & Hex & Hh' & HB & _ & HX); exists m'; (split; [done|]);
    (split; [by eapply alg_contents|done]).
Qed.
Print Assumptions C55_removing.

(** If the operators mean a total order, sorting sorts: here insertion sort, as standard
    libraries write it, over [indirect] elements [l] with a temporary [t].  It is stable: values of
    which none is less than another stay in order. *)
Theorem C55_sort {E : Env} (T : TP E) (K : Cls E) (HO : Honest T K) (C : Cmps E) (S : CmpSpec (c_val K)) (HC : Compares K C S)
    (HA : AllocReq E) (Hrefl : forall a, a_eqb E a a = true) (hs : nat -> header) o t l m (s : store E) :
  Means S o -> Total o ->
  held K hs s m -> one_alloc K m ->
  NoDup (t :: l) -> (forall x, x ∈ l -> is_Some (m !! x) /\ header_cls (hs x) = Ind /\ hs x = hs t) -> m !! t = None ->
  exists s' m' us us',
    run (aprog T C hs (insertion_sort t l AEnd)) s = ORet tt s' /\
    Forall2 (fun x u => fst <$> m !! x = Some u) l us /\ Forall2 (fun x u => fst <$> m' !! x = Some u) l us' /\
    us' ≡ₚ us /\ Sorted (fun u w => holds RLe (opt_order o (snd <$> u) (snd <$> w)) = true) us' /\
    (forall (P : option (ty * c_val K) -> Prop) (HD : forall u, Decision (P u)),
      (forall u w, P u -> P w -> holds RLt (opt_order o (snd <$> u) (snd <$> w)) = false) -> filter P us' = filter P us) /\
    (forall z, z ∉ l -> fst <$> m' !! z = fst <$> m !! z) /\
    held K hs s' m' /\ blocks s' = blocks s /\ exts s' = exts s.
Proof.
  intros HM Ht Hh Ho Hd Hl Hn.
  pose (lt := fun u w : option (ty * c_val K) => holds RLt (opt_order o (snd <$> u) (snd <$> w))).
  pose (le := fun u w : option (ty * c_val K) => holds RLe (opt_order o (snd <$> u) (snd <$> w))).
  assert (HR : forall x u w b, cmp_vals K S hs RLt x u w b -> b = inl (lt u w)).
  { intros x u w b Hb. exact (w_related_means S o HM Ht _ _ _ _ _ Hb). }
  assert (Hus : exists us, at_ (vals_of K m) l us).
  { clear - Hl. unfold at_, vals_of. induction l as [|x l IH]; [by exists []|]. destruct IH as [us IH]; [intros y Hy; apply Hl; by apply elem_of_list_further|].
    destruct (Hl x) as ([k Hk] & _); [by apply elem_of_list_here|]. exists (k.1 :: us). constructor; [by rewrite lookup_fmap, Hk|done]. }
  destruct Hus as [us Hus].
  destruct (sort_ok hs true lt (cmp_vals K S hs) HR t l AEnd (vals_of K m) us Hd) as [S1 S2].
  { intros y Hy. by destruct (Hl y Hy) as (_ & H1 & H2). }
  { unfold vals_of. by rewrite lookup_fmap, Hn. }
  { done. }
  assert (G := alg_run T K HO C S HC HA Hrefl hs true (insertion_sort t l AEnd) m s Hh Ho (S1 I)). cbn in G.
  destruct (run _ s) as [[] s'|e s'| |]; [| |done|done]; destruct G as (m' & Hex & Hh' & _ & HB & HX); specialize (HB eq_refl); apply S2 in Hex as [Hr Hv]; [|done].
  apply NoDup_cons in Hd as [Htl Hd]. assert (Hlen : length l = length us) by (by eapply Forall2_length).
  exists s', m', us, (sortv lt us). split; [done|]. unfold at_, vals_of in Hus, Hv. split.
  { eapply Forall2_impl; [exact Hus|]. intros x u. cbn. by rewrite lookup_fmap. }
  split.
  { assert (G := at_set (fst <$> m) l (sortv lt us) Hd). feed specialize G; [rewrite Hlen; symmetry; apply Permutation_length, sortv_perm|].
    unfold at_ in G. rewrite <- Hv in G. eapply Forall2_impl; [exact G|]. intros x u. cbn. by rewrite lookup_fmap. }
  split; [apply sortv_perm|]. split.
  { apply (sortv_sorted le lt).
    - intros u w. unfold lt, le. by destruct (opt_order _ _ _).
    - intros u w. unfold lt, le. destruct (opt_total o Ht (snd <$> u) (snd <$> w)) as [Hno ->]. by destruct (opt_order _ _ _). }
  split; [intros P HD Hlt; by apply sortv_stable|].
  split; [|done]. intros z Hz. rewrite <- !lookup_fmap, Hv. by apply set_at_ne.
Qed.
Print Assumptions C55_sort.

(** Removing consecutive duplicates: [std::unique] and erasing the rest, over [indirect] elements
    [l].  The elements left have the values that removing duplicates from the list of values leaves; the others
    are gone. *)
Theorem C55_unique {E : Env} (T : TP E) (K : Cls E) (HO : Honest T K) (C : Cmps E) (S : CmpSpec (c_val K)) (HC : Compares K C S)
    (HA : AllocReq E) (Hrefl : forall a, a_eqb E a a = true) (hs : nat -> header) o l m (s : store E) :
  Means S o -> Total o ->
  held K hs s m -> one_alloc K m ->
  NoDup l -> (forall x y, x ∈ l -> y ∈ l -> is_Some (m !! x) /\ header_cls (hs x) = Ind /\ hs x = hs y) ->
  exists s' m' us us' l1 l2,
    run (aprog T C hs (unique l AEnd)) s = ORet tt s' /\ l = l1 ++ l2 /\
    Forall2 (fun x u => fst <$> m !! x = Some u) l us /\
    us' = uniq (fun u w => holds REq (opt_order o (snd <$> u) (snd <$> w))) us /\
    Forall2 (fun x u => fst <$> m' !! x = Some u) l1 us' /\ (forall x, x ∈ l2 -> m' !! x = None) /\
    (forall z, z ∉ l -> fst <$> m' !! z = fst <$> m !! z) /\
    held K hs s' m' /\ blocks s' ⊆ blocks s /\ exts s' = exts s.
Proof.
  intros HM Ht Hh Ho Hd Hl.
  pose (eq := fun u w : option (ty * c_val K) => holds REq (opt_order o (snd <$> u) (snd <$> w))).
  assert (HR : forall x u w b, cmp_vals K S hs REq x u w b -> b = inl (eq u w)).
  { intros x u w b Hb. exact (w_related_means S o HM Ht _ _ _ _ _ Hb). }
  assert (Hus : exists us, at_ (vals_of K m) l us).
  { clear - Hl. unfold at_, vals_of. assert (Hl' : forall x, x ∈ l -> is_Some (m !! x)) by (intros x Hx; by apply (Hl x x Hx Hx)). clear Hl.
    induction l as [|x l IH]; [by exists []|]. destruct IH as [us IH]; [intros y Hy; apply Hl'; by apply elem_of_list_further|].
    destruct (Hl' x) as [k Hk]; [by apply elem_of_list_here|]. exists (k.1 :: us). constructor; [by rewrite lookup_fmap, Hk|done]. }
  destruct Hus as [us Hus].
  destruct (unique_ok hs eq (cmp_vals K S hs) HR AEnd l (vals_of K m) us Hd) as [S1 S2]; [|done|].
  { intros y z Hy Hz. by destruct (Hl y z Hy Hz) as (_ & H1 & H2). }
  assert (G := alg_run T K HO C S HC HA Hrefl hs false (unique l AEnd) m s Hh Ho (S1 I)). cbn in G.
  destruct (run _ s) as [[] s'|e s'| |]; [| |done|done]; destruct G as (m' & Hex & Hh' & HB & _ & HX); apply S2 in Hex as [Hr Hv]; [|done].
  assert (Hlen : length (uniq eq us) <= length l) by (rewrite (Forall2_length _ _ _ Hus); apply uniq_length).
  destruct (put_at (vals_of K m) l (uniq eq us) Hd Hlen) as [P1 P2]. rewrite <- Hv in P1, P2.
  exists s', m', us, (uniq eq us), (take (length (uniq eq us)) l), (drop (length (uniq eq us)) l).
  split; [done|]. split; [by rewrite take_drop|]. unfold at_, vals_of in *. split.
  { eapply Forall2_impl; [exact Hus|]. intros x u. cbn. by rewrite lookup_fmap. }
  split; [done|]. split.
  { eapply Forall2_impl; [exact P1|]. intros x u. cbn. by rewrite lookup_fmap. }
  split.
  { intros x Hx. specialize (P2 x Hx). rewrite lookup_fmap in P2. by destruct (m' !! x). }
  split; [|done]. intros z Hz. rewrite <- !lookup_fmap, Hv. by apply put_ne.
Qed.
Print Assumptions C55_unique.

(** ** Not vacuous *)

(** Two elements with values 5 and 6 (PropsVector.v), sorted as the range 1, 0 with the
    temporary 2. *)
Example C55_ex_hyps h : header_cls h = Ind ->
  Honest (flatTP EQ) (flat_cls EQ) /\ Compares (flat_cls EQ) (ex_cmps false false) (ex_spec false false) /\ Means (ex_spec false false) ex_ord /\ Total ex_ord /\
  held (flat_cls EQ) (fun _ => h) (two_store h []) two /\ one_alloc (flat_cls EQ) two /\ NoDup [2; 1; 0] /\
  (forall x, x ∈ [1; 0] -> is_Some (two (f := exQ) !! x) /\ header_cls h = Ind /\ h = h) /\ two (f := exQ) !! 2 = None.
Proof.
  intros Hh. split; [by apply el_honest|]. split; [apply C53_ex_compares|]. split; [apply C53_ex_means|]. split; [apply C53_ex_total|].
  split; [apply two_held|]. split; [|split; [|split; [|done]]].
  - unfold two. intros x y kx ky [[<- <-]|[_ [<- <-]%lookup_singleton_Some]]%lookup_insert_Some [[<- <-]|[_ [<- <-]%lookup_singleton_Some]]%lookup_insert_Some; done.
  - by apply (bool_decide_unpack _); vm_compute.
  - intros x [-> | [-> | []%elem_of_nil]%elem_of_cons]%elem_of_cons; by split; [eexists|].
Qed.
(** Rotating, over any of the four headers: nothing is compared. *)
Example C55_ex_rotate h : asafe (cmp_vals (flat_cls EQ) (ex_spec false false) (fun _ => h)) (fun _ => h) true
  (ATemp 2 0 (AMove 0 1 (AMove 1 2 (ADrop 2 AEnd)))) (vals_of (flat_cls EQ) two).
Proof.
  cbn. split; [done|]. split; [done|]. eexists. split; [done|]. split; [done|]. split; [eexists; by auto|]. eexists. split; [done|].
  split; [done|]. split; [eexists; by auto|]. eexists. split; [done|]. split; [by eexists|done].
Qed.
(** Exchanging an element with itself and moving it onto itself, as shuffling and partitioning may. *)
Example C55_ex_self h : asafe (cmp_vals (flat_cls EQ) (ex_spec false false) (fun _ => h)) (fun _ => h) true
  (ASwap 0 0 (AMove 1 1 AEnd)) (vals_of (flat_cls EQ) two).
Proof. cbn. split; [done|]. eexists _, _. split; [done|]. split; [done|]. split; [done|]. split; [eexists; by auto|]. by eexists. Qed.
Example C55_ex_selves :
  map (fun h => ex_elements (f := exQ) (run (aprog (flatTP EQ) (ex_cmps false false) (fun _ => h) (ASwap 0 0 (AMove 1 1 AEnd))) (two_store h [])))
    [HInd20; HInd14; HPoly20; HPoly14] =
  replicate 4 (Some ([(WVar 0, Some (0, 5)); (WVar 1, Some (1, 6))], 2)).
Proof. vm_compute. reflexivity. Qed.
(** What sorting the range 1, 0 and rotating do: the values, each in the block it was in. *)
Example C55_ex_run :
  map (fun h => ex_elements (f := exQ) (run (aprog (flatTP EQ) (ex_cmps false false) (fun _ => h) (insertion_sort 2 [1; 0] AEnd)) (two_store h []))) [HInd20; HInd14] =
  replicate 2 (Some ([(WVar 0, Some (1, 6)); (WVar 1, Some (0, 5))], 2)).
Proof. vm_compute. reflexivity. Qed.
Example C55_ex_rotated :
  map (fun h => ex_elements (f := exQ) (run (aprog (flatTP EQ) (ex_cmps false false) (fun _ => h) (ATemp 2 0 (AMove 0 1 (AMove 1 2 (ADrop 2 AEnd))))) (two_store h [])))
    [HInd20; HInd14; HPoly20; HPoly14] =
  replicate 4 (Some ([(WVar 0, Some (1, 6)); (WVar 1, Some (0, 5))], 2)).
Proof. vm_compute. reflexivity. Qed.
(** Erasing the first of two elements, over any header. *)
Example C55_ex_erase h : asafe (cmp_vals (flat_cls EQ) (ex_spec false false) (fun _ => h)) (fun _ => h) false
  (AMove 0 1 (ADrop 1 AEnd)) (vals_of (flat_cls EQ) two).
Proof. cbn. split; [done|]. split; [by eexists|]. eexists. split; [done|]. split; [by eexists|done]. Qed.
Example C55_ex_erased :
  map (fun h => ex_elements (f := exQ) (run (aprog (flatTP EQ) (ex_cmps false false) (fun _ => h) (AMove 0 1 (ADrop 1 AEnd))) (two_store h [])))
    [HInd20; HInd14; HPoly20; HPoly14] =
  replicate 4 (Some ([(WVar 0, Some (1, 6))], 1)).
Proof. vm_compute. reflexivity. Qed.
(** The elements made equal by an exchange of one for a copy of the other, then without duplicates. *)
Example C55_ex_unique :
  map (fun h => ex_elements (f := exQ) (run (bind (i_copy_assign (hdr_impl h (flatTP EQ)) (WVar 1) (WVar 0)) (fun _ =>
    aprog (flatTP EQ) (ex_cmps false false) (fun _ => h) (unique [0; 1] AEnd))) (two_store h []))) [HInd20; HInd14] =
  replicate 2 (Some ([(WVar 0, Some (0, 5))], 1)).
Proof. vm_compute. reflexivity. Qed.
Example C55_ex_distinct :
  map (fun h => ex_elements (f := exQ) (run (aprog (flatTP EQ) (ex_cmps false false) (fun _ => h) (unique [0; 1] AEnd)) (two_store h []))) [HInd20; HInd14] =
  replicate 2 (Some ([(WVar 0, Some (0, 5)); (WVar 1, Some (1, 6))], 2)).
Proof. vm_compute. reflexivity. Qed.
