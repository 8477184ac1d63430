(** * Wrappers as elements of containers: proofs. *)

From stdpp Require Import base gmap list.
From Verif Require Import Lang Common Client Spec Rep RunLemmas Headers Hist Tree TreeProps TreeMove
  Contract ContractProps ContractOps ContractMove ContractClient ContractClientProps Vector.

Section vector.
Context {E : Env} (T : TP E) (K : Cls E) (HO : Honest T K).
Context (HA : AllocReq E) (Hrefl : forall a, a_eqb E a a = true).
Context (hs : nat -> header).
Notation wv := (option (ty * c_val K) * eA E)%type.
Notation vars := (gmap nat wv).
Notation held := (held K hs).
Notation held_by := (held_by K hs).
Notation room := (room K hs).
Notation impl_of x := (hdr_impl (hs x) T).
Implicit Types m : vars.
Implicit Types s : store E.

(** No member functions are called. *)
Notation no_code := (fun (f : Empty_set) (_ : loc) => match f return prog E unit with end).
Notation no_sem := (fun (f : Empty_set) (_ : ty) (_ : c_val K) (_ : unit + exn) (_ : c_val K) => False).
Lemma no_method : forall f : Empty_set, Method K (no_code f) (no_sem f).
Proof. by intros []. Qed.

Lemma room_tail m x y l : room m ((x, y) :: l) ->
  m !! x = None /\ is_Some (m !! y) /\ hs x = hs y /\ x ∉ l.*1 /\ y ∉ l.*2 /\ x ∉ l.*2 /\ y ∉ l.*1 /\ x <> y.
Proof.
  intros [H1 H2 H3 H4 H5]. cbn in H1, H2. apply NoDup_cons in H1 as [H1 _]. apply NoDup_cons in H2 as [H2 _].
  assert (Hx : m !! x = None) by (apply (H3 x y), elem_of_list_here).
  assert (Hy : is_Some (m !! y)) by (apply (H4 x y), elem_of_list_here).
  split; [done|]. split; [done|]. split; [apply H5, elem_of_list_here|]. split; [done|]. split; [done|]. split_and!.
  - intros ([u v] & -> & Hin)%elem_of_list_fmap. destruct (H4 u v) as [k Hk]; [by apply elem_of_list_further|]. cbn in Hx. congruence.
  - intros ([u v] & -> & Hin)%elem_of_list_fmap. assert (Hn := H3 u v). cbn in Hy. rewrite Hn in Hy; [by destruct Hy|by apply elem_of_list_further].
  - intros ->. rewrite Hx in Hy. by destruct Hy.
Qed.
Lemma room_next m m' x y l : room m ((x, y) :: l) -> (forall z, z <> x -> z <> y -> m' !! z = m !! z) -> room m' l.
Proof.
  intros H Hz. destruct (room_tail _ _ _ _ H) as (_ & _ & _ & X1 & Y2 & X2 & Y1 & _). destruct H as [H1 H2 H3 H4 H5].
  apply NoDup_cons in H1 as [_ H1]. apply NoDup_cons in H2 as [_ H2].
  assert (Hn : forall u v, (u, v) ∈ l -> m' !! u = m !! u /\ m' !! v = m !! v).
  { intros u v Hin. assert (Hu : u ∈ l.*1) by (by apply (elem_of_list_fmap_1 fst) in Hin). assert (Hv : v ∈ l.*2) by (by apply (elem_of_list_fmap_1 snd) in Hin).
    split; apply Hz; intros ->; done. }
  split; [done|done|..]; intros u v Hin; destruct (Hn u v Hin) as [Hu Hv].
  - rewrite Hu. by apply (H3 u v), elem_of_list_further.
  - rewrite Hv. by apply (H4 u v), elem_of_list_further.
  - by apply (H5 u v), elem_of_list_further.
Qed.

(** ** Moving *)
Lemma move_one x y k m s : held s m -> m !! x = None -> m !! y = Some k -> hs x = hs y ->
  exists s', run (i_move (impl_of x) (WVar x) (WVar y)) s = ORet tt s' /\
    held s' (<[x := k]> (<[y := (None, k.2)]> m)) /\ blocks s' = blocks s /\ exts s' = exts s /\
    wraps s' !! WVar x = wraps s !! WVar y /\ (forall w, w <> WVar x -> w <> WVar y -> wraps s' !! w = wraps s !! w).
Proof.
  intros (FB & FW & H) Hx Hy Hh.
  assert (Hat := held_at _ _ _ _ _ _ _ _ H Hy).
  destruct (wr_ptr _ _ _ _ _ _ _ Hat) as (p & Hp & Hys & HyW & _).
  destruct (held_none T K HO _ _ _ _ _ _ H Hx) as (Hw & _ & _).
  destruct (move_steal Hrefl T (hs x) (WVar x) (WVar y) p k.2 s Hw Hys Hp) as (s' & R & E1 & E2 & E3).
  assert (Hxy : x <> y) by congruence.
  assert (G := step_move T K HO Hrefl Empty_set unit no_code no_sem hs x y m s FB FW H).
  feed specialize G; [cbn; by rewrite Hx, Hy|]. cbn [ginterp] in G. rewrite run_void in G. unfold ContractClient.impl_of in G. rewrite R in G.
  destruct G as (m' & (_ & k0 & k1 & ky & Hk0 & Hm & ->) & Hs%since_held).
  exists s'. split; [done|]. rewrite Hy in Hk0. simplify_eq.
  assert (k1 = k0 /\ ky = (None, k0.2)) as [-> ->].
  { unfold moved in Hm. destruct k0 as [[[t v]|] a]; by destruct Hm. }
  split; [done|]. split; [done|]. split; [done|]. rewrite E3. split.
  - rewrite lookup_insert. by rewrite Hys.
  - intros w W1 W2. by rewrite !lookup_insert_ne.
Qed.

Record moved_over (l : list (nat * nat)) m m' : Prop := {
  mo_new : forall x y, (x, y) ∈ l -> m' !! x = m !! y;
  mo_old : forall x y, (x, y) ∈ l -> exists k, m !! y = Some k /\ m' !! y = Some (None, k.2);
  mo_rest : forall z, z ∉ l.*1 -> z ∉ l.*2 -> m' !! z = m !! z;
}.
Lemma transfer_moves l : forall m s, held s m -> room m l -> (forall x y, (x, y) ∈ l -> nothrow_move E (hs x) = true) ->
  exists s' m', run (transfer T hs l) s = ORet tt s' /\ held s' m' /\ moved_over l m m' /\
    blocks s' = blocks s /\ exts s' = exts s /\
    (forall x y, (x, y) ∈ l -> wraps s' !! WVar x = wraps s !! WVar y) /\
    (forall z, z ∉ l.*1 -> z ∉ l.*2 -> wraps s' !! WVar z = wraps s !! WVar z).
Proof.
  induction l as [|[x y] l IH]; intros m s Hh Hr Hn.
  { exists s, m. split; [done|]. split; [done|]. split; [split; [intros ?? []%elem_of_nil|intros ?? []%elem_of_nil|done]|].
    split; [done|]. split; [done|]. split; [intros ?? []%elem_of_nil|done]. }
  destruct (room_tail _ _ _ _ Hr) as (Hx & [k Hy] & Hxy & X1 & Y2 & X2 & Y1 & Hne).
  destruct (move_one x y k m s Hh Hx Hy Hxy) as (s1 & R1 & H1 & B1 & E1 & W1 & W1').
  destruct (IH _ s1 H1) as (s2 & m2 & R2 & H2 & [M1 M2 M3] & B2 & E2 & W2 & W2').
  { apply (room_next m _ x y); [done|]. intros z Z1 Z2. by rewrite !lookup_insert_ne. }
  { intros u v Hin. apply (Hn u v). by apply elem_of_list_further. }
  exists s2, m2. split.
  { cbn [transfer]. unfold place. rewrite (Hn x y) by apply elem_of_list_here. rewrite run_bind, R1, run_catch, R2. done. }
  split; [done|].
  assert (Hl : forall u v, (u, v) ∈ l -> u ∈ l.*1 /\ v ∈ l.*2).
  { intros u v Hin. split; [by apply (elem_of_list_fmap_1 fst) in Hin|by apply (elem_of_list_fmap_1 snd) in Hin]. }
  split.
  { split.
    - intros u v [[= -> ->]|Hin]%elem_of_cons.
      + rewrite M3 by done. by rewrite lookup_insert.
      + destruct (Hl u v Hin). rewrite (M1 u v Hin). rewrite !lookup_insert_ne; [done|by intros ->..].
    - intros u v [[= -> ->]|Hin]%elem_of_cons.
      + exists k. split; [done|]. rewrite M3 by done. by rewrite lookup_insert_ne, lookup_insert.
      + destruct (Hl u v Hin). destruct (M2 u v Hin) as (k' & Hk' & ->). exists k'. rewrite !lookup_insert_ne in Hk'; [done|by intros ->..].
    - cbn. intros z Z1 Z2. apply not_elem_of_cons in Z1 as [Z1 Z1']. apply not_elem_of_cons in Z2 as [Z2 Z2'].
      rewrite M3 by done. by rewrite !lookup_insert_ne. }
  split; [congruence|]. split; [congruence|]. split.
  - intros u v [[= -> ->]|Hin]%elem_of_cons.
    + by rewrite W2'.
    + destruct (Hl u v Hin). rewrite (W2 u v Hin). apply W1'; intros [= ->]; done.
  - cbn. intros z Z1 Z2. apply not_elem_of_cons in Z1 as [Z1 Z1']. apply not_elem_of_cons in Z2 as [Z2 Z2'].
    rewrite W2' by done. apply W1'; congruence.
Qed.

(** ** Destroying *)
Lemma destroy_one x k m s : held s m -> m !! x = Some k ->
  exists s', run (i_dtor (impl_of x) (WVar x)) s = ORet tt s' /\ held s' (delete x m) /\ exts s' = exts s /\
    (k.1 = None -> blocks s' = blocks s) /\ (forall z, z <> x -> wraps s' !! WVar z = wraps s !! WVar z).
Proof.
  intros (FB & FW & H) Hx. assert (Hat := held_at _ _ _ _ _ _ _ _ H Hx).
  destruct (dtor_g T K HO s (hs x) (WVar x) k _ _ Hat) as (s' & R & Hch).
  exists s'. split; [done|]. split.
  { apply (since_held K hs m FB FW [x]), (held_put1 K hs s s' m _ FB FW x None ∅ ∅ H); [done|done|by rewrite lookup_delete|].
    intros z Hz. by rewrite lookup_delete_ne. }
  destruct Hch as [C1 C2 C3 _ _]. split; [done|]. split.
  - intros Hk. destruct k as [[]]; [done|]. destruct Hat as [[HB _] _ _]. rewrite C1, HB. clear. map_solve.
  - intros z Hz. rewrite C2, (left_id_L ∅ (∪)). destruct (FW x !! WVar z) eqn:HF.
    + exfalso. destruct (wr_dom T K HO _ _ _ _ _ (wa_rep _ _ _ _ _ _ _ Hat) (WVar z)) as [?|(?&?&?&_)]; [by eexists|congruence|done].
    + by rewrite lookup_diff, HF.
Qed.
Lemma destroy_many l : forall m s, held s m -> NoDup l -> (forall y, y ∈ l -> is_Some (m !! y)) ->
  exists s' m', run (destroy_all T hs l) s = ORet tt s' /\ held s' m' /\ exts s' = exts s /\
    (forall y, y ∈ l -> m' !! y = None) /\ (forall z, z ∉ l -> m' !! z = m !! z) /\
    ((forall y, y ∈ l -> exists a, m !! y = Some (None, a)) -> blocks s' = blocks s) /\
    (forall z, z ∉ l -> wraps s' !! WVar z = wraps s !! WVar z).
Proof.
  induction l as [|y l IH]; intros m s Hh Hd Hs.
  { exists s, m. split; [done|]. split; [done|]. split; [done|]. split; [intros ? []%elem_of_nil|]. done. }
  apply NoDup_cons in Hd as [Hy Hd]. destruct (Hs y) as [k Hk]; [apply elem_of_list_here|].
  destruct (destroy_one y k m s Hh Hk) as (s1 & R1 & H1 & E1 & B1 & W1).
  destruct (IH _ s1 H1 Hd) as (s2 & m2 & R2 & H2 & E2 & M1 & M2 & B2 & W2).
  { intros z Hz. rewrite lookup_delete_ne by (by intros ->). apply Hs. by apply elem_of_list_further. }
  exists s2, m2. split; [cbn [destroy_all]; by rewrite run_bind, R1|]. split; [done|]. split; [congruence|]. split_and!.
  - intros z [->|Hz]%elem_of_cons; [|by apply M1]. rewrite M2 by done. apply lookup_delete.
  - intros z [Z1 Z2]%not_elem_of_cons. rewrite M2 by done. by rewrite lookup_delete_ne.
  - intros Hv. rewrite B2, B1; [done| |].
    + destruct (Hv y) as [a Ha]; [apply elem_of_list_here|]. rewrite Hk in Ha. by simplify_eq.
    + intros z Hz. rewrite lookup_delete_ne by (by intros ->). apply Hv. by apply elem_of_list_further.
  - intros z [Z1 Z2]%not_elem_of_cons. rewrite W2 by done. by apply W1.
Qed.

Lemma grow_moves l m s : held s m -> room m l -> (forall x y, (x, y) ∈ l -> nothrow_move E (hs x) = true) ->
  exists s' m', run (grow T hs l) s = ORet tt s' /\ held s' m' /\ regrown K eq l m m' /\
    blocks s' = blocks s /\ exts s' = exts s /\ (forall x y, (x, y) ∈ l -> wraps s' !! WVar x = wraps s !! WVar y).
Proof.
  intros Hh Hr Hn. destruct (transfer_moves l m s Hh Hr Hn) as (s1 & m1 & R1 & H1 & [M1 M2 M3] & B1 & E1 & W1 & _).
  assert (Ho : forall y, y ∈ l.*2 -> exists x, (x, y) ∈ l).
  { intros y ([u v] & -> & Hin)%elem_of_list_fmap. by exists u. }
  assert (Hnew : forall x y, (x, y) ∈ l -> x ∉ l.*2).
  { intros x y Hin ([u v] & -> & Hin')%elem_of_list_fmap. destruct (rm_some _ _ _ _ Hr _ _ Hin') as [? Hs].
    cbn in Hin. by rewrite (rm_none _ _ _ _ Hr _ _ Hin) in Hs. }
  destruct (destroy_many l.*2 m1 s1 H1 (rm_old _ _ _ _ Hr)) as (s2 & m2 & R2 & H2 & E2 & D1 & D2 & B2 & W2).
  { intros y [x Hin]%Ho. destruct (M2 x y Hin) as (k & _ & ->). by eexists. }
  exists s2, m2. split; [unfold grow; by rewrite run_bind, R1|]. split; [done|]. split.
  { split; [|done|].
    - intros x y Hin. destruct (rm_some _ _ _ _ Hr _ _ Hin) as [k Hk]. exists k, k. split; [done|].
      rewrite D2 by (by eapply Hnew). by rewrite (M1 x y Hin).
    - intros z Z1 Z2. rewrite D2 by done. by apply M3. }
  split.
  { rewrite B2; [done|]. intros y [x Hin]%Ho. destruct (M2 x y Hin) as (k & _ & ->). by eexists. }
  split; [congruence|]. intros x y Hin. rewrite W2 by (by eapply Hnew). by apply W1.
Qed.

(** ** Copying *)
Lemma copy_one x y k m s : held s m -> m !! x = None -> m !! y = Some k -> hs x = hs y ->
  match run (i_copy (impl_of x) (WVar x) (WVar y)) s with
  | ORet _ s' => exists k' B W, copied K (a_soccc E k.2) k k' /\ wrapped K (hs x) (WVar x) k' B W /\
      changed s s' ∅ ∅ B W /\ held s' (<[x := k']> m)
  | OThrow _ s' => same s s'
  | _ => False
  end.
Proof.
  intros (FB & FW & H) Hx Hy Hh. destruct (held_none T K HO _ _ _ _ _ _ H Hx) as (Hw & HB & HW).
  assert (Hat := held_at _ _ _ _ _ _ _ _ H Hy). rewrite <- Hh in Hat.
  assert (G := copy_g T K HO (hs x) (WVar x) (WVar y) k _ _ s (held_mem_ok T K HO _ _ _ _ _ H) I Hw Hat).
  destruct (run (i_copy _ _ _) s) as [u s'|e s'| |]; [|done|done|done].
  destruct G as (k' & B & W & Hk & Hwr & Hch). exists k', B, W. split; [done|]. split; [done|]. split; [done|].
  apply (since_held K hs m FB FW [x]), (held_put1 K hs s s' m _ FB FW x (Some k') B W H); [by rewrite HB, HW|done|by rewrite lookup_insert|].
  intros z Hz. by rewrite lookup_insert_ne.
Qed.
Lemma transfer_copies l : forall m s, held s m -> room m l -> (forall x y, (x, y) ∈ l -> nothrow_move E (hs x) = false) ->
  match run (transfer T hs l) s with
  | ORet _ s' => exists m', held s' m' /\ exts s' = exts s /\
      (forall x y, (x, y) ∈ l -> exists k k', m !! y = Some k /\ m' !! x = Some k' /\ copied K (a_soccc E k.2) k k') /\
      (forall z, z ∉ l.*1 -> m' !! z = m !! z)
  | OThrow _ s' => same s s'
  | _ => False
  end.
Proof.
  induction l as [|[x y] l IH]; intros m s Hh Hr Hn.
  { exists m. split; [done|]. split; [done|]. split; [intros ?? []%elem_of_nil|done]. }
  destruct (room_tail _ _ _ _ Hr) as (Hx & [k Hy] & Hxy & X1 & Y2 & X2 & Y1 & Hne).
  cbn [transfer]. unfold place. rewrite (Hn x y) by apply elem_of_list_here. rewrite run_bind.
  assert (G := copy_one x y k m s Hh Hx Hy Hxy). destruct (run (i_copy _ _ _) s) as [u s1|e s1| |]; [|done|done|done].
  destruct G as (k' & B & W & Hk & Hwr & Hch & H1). rewrite run_catch.
  specialize (IH _ s1 H1). feed specialize IH.
  { apply (room_next m _ x y); [done|]. intros z Z1 Z2. by rewrite lookup_insert_ne. }
  { intros u' v Hin. apply (Hn u' v). by apply elem_of_list_further. }
  destruct (run (transfer _ _ _) s1) as [u2 s2|e s2| |]; [| |done|done].
  - destruct IH as (m2 & H2 & E2 & M1 & M2). exists m2. split; [done|]. split; [by rewrite E2, (ch_x _ _ _ _ _ _ Hch)|]. split.
    + intros u' v [[= -> ->]|Hin]%elem_of_cons.
      * exists k, k'. split; [done|]. split; [|done]. rewrite M2 by done. apply lookup_insert.
      * destruct (M1 u' v Hin) as (q & q' & Hq & Hq' & Hc). exists q, q'. split; [|done].
        rewrite lookup_insert_ne in Hq; [done|]. intros ->. by apply (elem_of_list_fmap_1 snd) in Hin.
    + cbn. intros z [Z1 Z2]%not_elem_of_cons. rewrite M2 by done. by rewrite lookup_insert_ne.
  - rewrite run_bind. destruct IH as [S1 S2 S3]. destruct Hch as [C1 C2 C3 C4 C5].
    destruct (dtor_g T K HO s2 (hs x) (WVar x) k' B W) as (s3 & R & [D1 D2 D3 _ _]).
    { split; [done|rewrite S1, C1; clear; map_solve|rewrite S2, C2; clear; map_solve]. }
    rewrite R. cbn. split; [rewrite D1, S1, C1; clear - C4; map_solve|rewrite D2, S2, C2; clear - C5; map_solve|congruence].
Qed.
Lemma grow_copies l m s : held s m -> room m l -> (forall x y, (x, y) ∈ l -> nothrow_move E (hs x) = false) ->
  match run (grow T hs l) s with
  | ORet _ s' => exists m', held s' m' /\ exts s' = exts s /\ regrown K (fun k k' => copied K (a_soccc E k.2) k k') l m m'
  | OThrow _ s' => same s s'
  | _ => False
  end.
Proof.
  intros Hh Hr Hn. unfold grow. rewrite run_bind. assert (G := transfer_copies l m s Hh Hr Hn).
  destruct (run (transfer _ _ _) s) as [u s1|e s1| |]; [|done|done|done]. destruct G as (m1 & H1 & E1 & M1 & M2).
  assert (Ho : forall y, y ∈ l.*2 -> exists x, (x, y) ∈ l).
  { intros y ([a b] & -> & Hin)%elem_of_list_fmap. by exists a. }
  assert (Hdis : forall z, z ∈ l.*1 -> z ∉ l.*2).
  { intros z ([a b] & -> & Hin)%elem_of_list_fmap ([c d] & Heq & Hin')%elem_of_list_fmap. cbn in Heq. subst.
    destruct (rm_some _ _ _ _ Hr _ _ Hin') as [? Hs]. by rewrite (rm_none _ _ _ _ Hr _ _ Hin) in Hs. }
  destruct (destroy_many l.*2 m1 s1 H1 (rm_old _ _ _ _ Hr)) as (s2 & m2 & R2 & H2 & E2 & D1 & D2 & _ & _).
  { intros y Hy. rewrite M2 by (intros ?; by eapply Hdis). apply Ho in Hy as [x Hin]. by eapply (rm_some _ _ _ _ Hr). }
  rewrite R2. exists m2. split; [done|]. split; [congruence|]. split; [|done|].
  - intros x y Hin. destruct (M1 x y Hin) as (k & k' & Hk & Hk' & Hc). exists k, k'. split; [done|]. split; [|done].
    rewrite D2; [done|]. apply Hdis. by apply (elem_of_list_fmap_1 fst) in Hin.
  - intros z Z1 Z2. rewrite D2 by done. by apply M2.
Qed.

(** ** Erasing *)
Lemma last_cons (l : list nat) : forall y x, List.last (y :: l) x = List.last l y.
Proof. induction l as [|z l IH]; intros y x; [done|]. change (List.last (z :: l) x = List.last (z :: l) y). by rewrite !IH. Qed.
Lemma erase_run l : forall x k ks m s, held s m -> NoDup (x :: l) -> Forall (fun y => hs y = hs x) l ->
  m !! x = Some k -> Forall2 (fun y k => m !! y = Some k) l ks -> one_allocator K k ks ->
  exists s' m', run (erase T hs x l) s = ORet tt s' /\ held s' m' /\
    Forall2 (fun y k => m' !! y = Some k) (take (length l) (x :: l)) (closed_up K k ks) /\
    m' !! (List.last l x) = None /\ (forall z, z ∉ x :: l -> m' !! z = m !! z).
Proof.
  induction l as [|y l IH]; intros x k ks m s Hh Hd Hf Hx Hl Ho.
  { inversion Hl; subst. destruct (destroy_one x k m s Hh Hx) as (s' & R & H & _). exists s', (delete x m).
    split; [done|]. split; [done|]. split; [constructor|]. split; [apply lookup_delete|].
    intros z Hz. rewrite lookup_delete_ne; [done|]. intros ->. apply Hz, elem_of_list_here. }
  inversion Hl as [|? ky ? ks' Hy Hl']; subst. destruct Ho as [Ha Ho]. cbn [erase]. rewrite run_bind.
  apply NoDup_cons in Hd as [Hxl Hd]. apply not_elem_of_cons in Hxl as [Hxy Hxl].
  inversion Hf as [|? ? Hhy Hf']; subst.
  destruct Hh as (FB & FW & H).
  assert (G := step_massign T K HO HA Hrefl Empty_set unit no_code no_sem no_method hs x y m s FB FW H).
  feed specialize G; [cbn; by rewrite Hx, Hy|]. cbn [ginterp] in G. rewrite run_void in G. unfold ContractClient.impl_of in G.
  destruct (run (i_move_assign _ _ _) s) as [u s1|e s1| |].
  - destruct G as (m1 & Hst & Hh1%since_held). cbn in Hst. rewrite decide_False in Hst by done.
    destruct Hst as (kx & ky0 & Hkx & Hky & _ & k' & ky' & Hm & ->). rewrite Hx in Hkx. rewrite Hy in Hky. simplify_eq.
    rewrite Ha in Hm. assert (k' = (ky0.1, kept (pocma E) kx.2 ky0.2) /\ ky' = (None, ky0.2)) as [-> ->].
    { unfold moved in Hm. destruct ky0 as [[[t v]|] a]; by destruct Hm. }
    destruct (IH y (None, ky0.2) ks' _ s1 Hh1 Hd) as (s2 & m2 & R2 & H2 & F2 & L2 & Z2).
    { eapply Forall_impl; [exact Hf'|]. cbn. intros ? ->. done. }
    { by rewrite lookup_insert_ne, lookup_insert. }
    { apply NoDup_cons in Hd as [Hyl _]. clear - Hl' Hxl Hyl. induction Hl'; [constructor|].
      apply not_elem_of_cons in Hxl as [? ?]. apply not_elem_of_cons in Hyl as [? ?]. constructor; [by rewrite !lookup_insert_ne|auto]. }
    { destruct ks'; [done|]. done. }
    exists s2, m2. split; [done|]. split; [done|]. split.
    { cbn [length take closed_up]. constructor.
      - rewrite Z2 by (by apply not_elem_of_cons). by rewrite lookup_insert.
      - replace (closed_up K ky0 ks') with (closed_up K (None, ky0.2) ks') by (by destruct ks'). done. }
    split; [replace (List.last (y :: l) x) with (List.last l y); [done|]|].
    { symmetry. apply last_cons. }
    intros z [Z1 [Z2' Z3]%not_elem_of_cons]%not_elem_of_cons. rewrite Z2 by (by apply not_elem_of_cons). by rewrite !lookup_insert_ne.
  - destruct G as (m1 & Hst & _). cbn in Hst. rewrite decide_False in Hst by done.
    destruct Hst as (kx & ky0 & Hkx & Hky & Hf0 & _). rewrite Hx in Hkx. rewrite Hy in Hky. simplify_eq. congruence.
  - done.
  - destruct G as (_ & _ & kx & ky0 & Hkx & Hky & Hf0 & _). rewrite Hx in Hkx. rewrite Hy in Hky. simplify_eq. congruence.
Qed.

(** ** Exchanging *)
Lemma swap_one x y kx ky m s : held s m -> x <> y -> hs x = hs y -> m !! x = Some kx -> m !! y = Some ky ->
  (pocs E = false -> a_eqb E kx.2 ky.2 = true) ->
  exists s' kx' ky', run (i_swap (impl_of x) (WVar x) (WVar y)) s = ORet tt s' /\
    swapped K kx ky kx' ky' /\ held s' (<[x := kx']> (<[y := ky']> m)) /\ blocks s' = blocks s /\ exts s' = exts s.
Proof.
  intros (FB & FW & H) Hxy Hh Hx Hy Ha.
  assert (Hax := held_at _ _ _ _ _ _ _ _ H Hx). assert (Hay := held_at _ _ _ _ _ _ _ _ H Hy). rewrite <- Hh in Hay.
  destruct (swap_g T K HA (hs x) (WVar x) (WVar y) kx ky _ _ _ _ s Hax Hay
    (hd_db _ _ _ _ _ _ H x y Hxy) (hd_dw _ _ _ _ _ _ H x y Hxy) Ha) as (s' & kx' & ky' & Wx' & Wy' & R & Hs & H1 & H2 & D & Hch).
  exists s', kx', ky'. split; [done|]. split; [done|]. split.
  - apply (since_held K hs m FB FW [x; y]), (held_put2 K hs s s' m _ FB FW x y (Some kx') (Some ky') (FB y) (FB x) Wx' Wy' H); [done|done| |done|done| | | |].
    + symmetry. exact (hd_db _ _ _ _ _ _ H x y Hxy).
    + cbn. by rewrite <- Hh.
    + by rewrite lookup_insert.
    + by rewrite lookup_insert_ne, lookup_insert.
    + intros z Z1 Z2. by rewrite !lookup_insert_ne.
  - split; [|apply Hch]. assert (Bx := hd_b _ _ _ _ _ _ H x). assert (By := hd_b _ _ _ _ _ _ H y).
    rewrite (ch_b _ _ _ _ _ _ Hch). clear - Bx By. map_solve.
Qed.

Lemma with_value_self (k : option wv) : with_value K k k = k.
Proof. destruct k as [[]|]; [|done]. cbn. by destruct (pocs E). Qed.
Lemma exchanged_some x y m z : is_Some (m !! x) -> is_Some (m !! y) -> is_Some (m !! exchanged x y z) <-> is_Some (m !! z).
Proof. intros Hx Hy. unfold exchanged. repeat case_decide; subst; tauto. Qed.
Lemma exchange_run l : forall m s, held s m -> pairs K hs m l ->
  exists s' m', run (exchange T hs l) s = ORet tt s' /\ held s' m' /\ blocks s' = blocks s /\
    forall z, m' !! z = with_value K (m !! z) (m !! exchanges l z).
Proof.
  induction l as [|[x y] l IH]; intros m s Hh HP.
  { exists s, m. split; [done|]. split; [done|]. split; [done|]. intros z. cbn. by rewrite with_value_self. }
  assert (Hin : (x, y) ∈ (x, y) :: l) by apply elem_of_list_here.
  destruct (pr_some _ _ _ _ HP x y Hin) as [[kx Hx] [ky Hy]]. assert (Hxy := pr_ne _ _ _ _ HP x y Hin).
  destruct (swap_one x y kx ky m s Hh Hxy (pr_hdr _ _ _ _ HP x y Hin) Hx Hy) as (s1 & kx' & ky' & R1 & Hs & H1 & B1 & _).
  { intros Hp. by apply (pr_alloc _ _ _ _ HP x y). }
  set (m1 := <[x := kx']> (<[y := ky']> m)) in *.
  assert (Hm1 : forall z, m1 !! z = with_value K (m !! z) (m !! exchanged x y z)).
  { intros z. unfold m1, exchanged. destruct (decide (z = x)) as [->|Hzx]; [|destruct (decide (z = y)) as [->|Hzy]].
    - rewrite lookup_insert, Hx, Hy. cbn. unfold swapped in Hs. destruct (pocs E); by destruct Hs as [-> ->].
    - rewrite lookup_insert_ne, lookup_insert, Hx, Hy by done. cbn. unfold swapped in Hs. destruct (pocs E); by destruct Hs as [-> ->].
    - rewrite !lookup_insert_ne by done. by rewrite with_value_self. }
  assert (Hsome : forall z, is_Some (m !! exchanged x y z) <-> is_Some (m !! z)).
  { intros z. apply exchanged_some; by eexists. }
  assert (Hsome1 : forall z k, m1 !! z = Some k -> exists k0, m !! z = Some k0 /\ (pocs E = false -> k.2 = k0.2)).
  { intros z k. rewrite Hm1. destruct (m !! z) as [k0|]; [|done]. destruct (m !! exchanged x y z) as [k1|]; [|done].
    cbn. intros [= <-]. exists k0. split; [done|]. by intros ->. }
  assert (Hsome2 : forall z, is_Some (m !! z) -> is_Some (m1 !! z)).
  { intros z Hz. rewrite Hm1. assert (Hz' := proj2 (Hsome z) Hz). destruct Hz as [? ->], Hz' as [? ->]. by eexists. }
  destruct (IH m1 s1 H1) as (s2 & m2 & R2 & H2 & B2 & M2).
  { split.
    - intros u v Hu. apply (pr_ne _ _ _ _ HP u v). by apply elem_of_list_further.
    - intros u v Hu. apply (pr_hdr _ _ _ _ HP u v). by apply elem_of_list_further.
    - intros u v Hu. destruct (pr_some _ _ _ _ HP u v) as [? ?]; [by apply elem_of_list_further|]. auto.
    - intros u v ku kv Hu Hku Hkv Hp. destruct (Hsome1 _ _ Hku) as (ku0 & Hku0 & ->); [|done]. destruct (Hsome1 _ _ Hkv) as (kv0 & Hkv0 & ->); [|done].
      apply (pr_alloc _ _ _ _ HP u v); [by apply elem_of_list_further|done..]. }
  exists s2, m2. split; [cbn [exchange]; by rewrite run_bind, R1|]. split; [done|]. split; [congruence|].
  intros z. rewrite M2, !Hm1. cbn [exchanges]. assert (S1 := Hsome z). assert (S2 := Hsome (exchanges l z)).
  destruct (m !! z) as [k1|], (m !! exchanged x y z) as [k2|], (m !! exchanges l z) as [k3|], (m !! exchanged x y (exchanges l z)) as [k4|]; try done;
    try (by destruct S1 as [_ [? ?]]); try (by destruct S2 as [[? ?] _]); try (by destruct S2 as [_ [? ?]]); try (by destruct S1 as [[? ?] _]).
  cbn. by destruct (pocs E).
Qed.
End vector.
