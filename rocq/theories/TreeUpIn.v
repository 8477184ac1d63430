(** * Copy assignment in place to a wrapper nested in the source's own value. *)

From stdpp Require Import base gmap list.
From Verif Require Import Lang Common Client Spec Rep RunLemmas Headers Hist Tree TreeProps TreeAssign TreeAssignC TreeMove TreeMoveAssign.
From Verif Require Import TreeSub TreeSubUB TreeObs TreeSubMem TreeClient TreePlace TreeOps TreeEx TreeAsgObs TreeSubDeep.
From Verif Require Import TreeUp.
From Verif Require Import Indirect20 Indirect14 Polymorphic20 Polymorphic14.

Section up.
Context {E : Env} (Sh : Shape E).
Notation A := (eA E).
Notation V := (eV E).
Notation wst := (option (tree E) * A)%type.
Implicit Types s : store E.
Notation wrap_heap := (wrap_heap Sh).
Notation mem_heap := (mem_heap Sh).
Notation nodeTP := (nodeTP Sh).
Notation node_impl := (node_impl Sh).
Notation placed := (placed Sh).
Notation placed_all := (placed_all Sh).
Notation hs := (k_hdr Sh (tT E)).
Notation seen h k p := (match sub_at_path Sh h k p with Some (_, k') => Some (data <$> k'.1) | None => None end).

(** A tree's heap is determined by the memory it lies in. *)
Lemma heap_fun h w k B W : wrap_heap h w k B W -> forall k2 B2 W2 (B0 : gmap loc (block E)) (W0 : gmap wl (wrapper E)),
  wrap_heap h w k2 B2 W2 -> B ⊆ B0 -> B2 ⊆ B0 -> W ⊆ W0 -> W2 ⊆ W0 -> k = k2 /\ B = B2 /\ W = W2.
Proof.
  intros H.
  refine (wrap_heap_mind E Sh
    (fun h w k B W _ => forall k2 B2 W2 (B0 : gmap loc (block E)) (W0 : gmap wl (wrapper E)),
       wrap_heap h w k2 B2 W2 -> B ⊆ B0 -> B2 ⊆ B0 -> W ⊆ W0 -> W2 ⊆ W0 -> k = k2 /\ B = B2 /\ W = W2)
    (fun hs' nm i ks B W _ => forall ks2 B2 W2 (B0 : gmap loc (block E)) (W0 : gmap wl (wrapper E)),
       mem_heap hs' nm i ks2 B2 W2 -> length ks2 = length ks -> B ⊆ B0 -> B2 ⊆ B0 -> W ⊆ W0 -> W2 ⊆ W0 ->
       ks = ks2 /\ B = B2 /\ W = W2)
    _ _ _ _ _ _ _ _ _ H).
  - intros h' w' a k2 B2 W2 B0 W0 H2 _ _ S1 S2. apply wrap_inv in H2.
    assert (HX := lookup_weaken _ _ w' _ (lookup_singleton _ _) S1).
    destruct k2 as [[[t v kids]|] a2].
    + destruct H2 as (l & b & B3 & W3 & -> & -> & _).
      assert (HY := lookup_weaken _ _ w' _ (lookup_insert _ _ _) S2). congruence.
    + destruct H2 as [-> ->]. assert (HY := lookup_weaken _ _ w' _ (lookup_singleton _ _) S2). by simplify_eq.
  - intros h' w' a l t v kids b B1 W1 Hok Hlen Hm IH HBl HWw k2 B2 W2 B0 W0 H2 S1 S2 S3 S4. apply wrap_inv in H2.
    assert (HX := lookup_weaken _ _ w' _ (lookup_insert _ _ _) S3).
    assert (HXb := lookup_weaken _ _ l _ (lookup_insert _ _ _) S1).
    destruct k2 as [[[t2 v2 kids2]|] a2].
    2:{ destruct H2 as [-> ->]. assert (HY := lookup_weaken _ _ w' _ (lookup_singleton _ _) S4). congruence. }
    destruct H2 as (l2 & b2 & B3 & W3 & -> & -> & HBl2 & HWw2 & Hok2 & Hlen2 & Hm2).
    assert (HY := lookup_weaken _ _ w' _ (lookup_insert _ _ _) S4). rewrite HX in HY. simplify_eq.
    assert (HYb := lookup_weaken _ _ l2 _ (lookup_insert _ _ _) S2). rewrite HXb in HYb. simplify_eq.
    destruct Hok as (_ & Hobj & _). destruct Hok2 as (_ & Hobj2 & _). rewrite Hobj in Hobj2. simplify_eq.
    destruct (IH kids2 B3 W3 B0 W0 Hm2) as (-> & -> & ->); [congruence|..]; [| | | |done].
    + clear - S1 HBl. map_solve.
    + clear - S2 HBl2. map_solve.
    + clear - S3 HWw. map_solve.
    + clear - S4 HWw2. map_solve.
  - intros hs' nm i ks2 B2 W2 B0 W0 H2 Hl _ _ _ _. destruct ks2; [|done]. by apply mem_nil_inv in H2 as [-> ->].
  - intros hs' nm i k' ks B1 W1 B2 W2 Hw IH1 Hm IH2 DB DW ks2 B3 W3 B0 W0 H3 Hl S1 S2 S3 S4.
    destruct ks2 as [|k2 ks2]; [done|].
    apply mem_cons_inv in H3 as (B4 & W4 & B5 & W5 & -> & -> & D1 & D2 & H4 & H5).
    destruct (IH1 k2 B4 W4 B0 W0 H4) as (-> & -> & ->); [clear - S1; map_solve|clear - S2; map_solve|clear - S3; map_solve|clear - S4; map_solve|].
    destruct (IH2 ks2 B5 W5 B0 W0 H5) as (-> & -> & ->);
      [by simplify_eq/=|clear - S1 DB; map_solve|clear - S2 D1; map_solve|clear - S3 DW; map_solve|clear - S4 D2; map_solve|done].
Qed.

(** Paths into a tree with a part replaced. *)
Lemma put_self p h k h' k1 : sub_at_path Sh h k p = Some (h', k1) -> put_at k p k1 = k.
Proof.
  revert h k. induction p as [|i p IH]; intros h k Hp; cbn in *; [by simplify_eq|].
  destruct k as [[[t v kids]|] a]; [|done]. cbn in *. destruct (kids !! i) as [ki|] eqn:Hi; [|done].
  rewrite (alter_insert_list _ _ _ ki) by done. erewrite IH by done. by rewrite list_insert_id.
Qed.
Lemma put_put p (k k1 k2 : wst) : put_at (put_at k p k1) p k2 = put_at k p k2.
Proof.
  revert k. induction p as [|i p IH]; intros k; [done|]. cbn. destruct k as [[[t v kids]|] a]; [|done]. cbn.
  do 3 f_equal. rewrite <- list_alter_compose. apply list_alter_ext; [|done]. intros x _. cbn. apply IH.
Qed.
Lemma put_app p q (k k' : wst) h h' k1 :
  sub_at_path Sh h k p = Some (h', k1) -> put_at k (p ++ q) k' = put_at k p (put_at k1 q k').
Proof.
  revert h k. induction p as [|i p IH]; intros h k Hp; cbn in *; [by simplify_eq|].
  destruct k as [[[t v kids]|] a]; [|done]. cbn in *. destruct (kids !! i) as [ki|] eqn:Hi; [|done].
  rewrite !(alter_insert_list _ _ _ ki) by done. by erewrite IH by done.
Qed.
Lemma seen_above p1 p2 h (k k' : wst) : p2 <> [] -> seen h (put_at k (p1 ++ p2) k') p1 = seen h k p1.
Proof.
  intros H2. revert h k. induction p1 as [|i p IH]; intros h k.
  - destruct p2 as [|i p2]; [done|]. cbn. by destruct k as [[[t v kids]|] a].
  - cbn. destruct k as [[[t v kids]|] a]; [|done]. cbn. rewrite list_lookup_alter. destruct (kids !! i); [|done]. cbn. apply IH.
Qed.

(** Depth bounds for the descent: the members along the path [p], repeated, are nested at most
    [L] deep; the others have depth at most [b]. *)
Fixpoint chained (L b : nat) (k : wst) (p : list nat) : Prop :=
  match k.1 with
  | None => True
  | Some (TNode t v kids) =>
      match L, p with
      | S L', i :: p' =>
          (forall j kj, kids !! j = Some kj -> j <> i -> fits b kj.1) /\
          (forall ki, kids !! i = Some ki -> chained L' b ki (p' ++ [i]))
      | _, _ => False
      end
  end.
Lemma fits_le m n (T : option (tree E)) : m <= n -> fits m T -> fits n T.
Proof. induction 1; [done|]. intros. apply fits_S; auto. Qed.
Lemma chained_fits L b (k : wst) p : chained L b k p -> fits (L + b) k.1.
Proof.
  revert k p. induction L as [|L IH]; intros [[[t v kids]|] a] p Hc; cbn in Hc.
  - done.
  - by destruct b.
  - destruct p as [|i p]; [done|]. destruct Hc as [H1 H2]. cbn. apply Forall_lookup. intros j kj Hj.
    destruct (decide (j = i)) as [->|Hne]; [by eapply IH, H2|]. apply (fits_le b); [lia|]. by eapply H1.
  - done.
Qed.
Lemma fits_chained m b (k : wst) p : m <= b -> p <> [] -> fits m k.1 -> chained m b k p.
Proof.
  revert k p. induction m as [|m IH]; intros [[[t v kids]|] a] p Hb Hp Hf; try done.
  destruct p as [|i p]; [done|]. cbn in Hf |- *. rewrite Forall_lookup in Hf. split.
  - intros j kj Hj _. apply (fits_le m); [lia|]. by eapply Hf.
  - intros ki Hi. apply IH; [lia|by destruct p|by eapply Hf].
Qed.
Lemma chained_put p1 p2 L b h (k : wst) h' k1 k1' :
  chained L b k (p1 ++ p2) -> sub_at_path Sh h k p1 = Some (h', k1) ->
  (forall L', chained L' b k1 (p2 ++ p1) -> chained L' b k1' (p2 ++ p1)) -> chained L b (put_at k p1 k1') (p1 ++ p2).
Proof.
  revert p2 L h k. induction p1 as [|i p IH]; intros p2 L h k Hc Hs Hk.
  - cbn in *. simplify_eq. rewrite app_nil_r in Hk. by apply Hk.
  - cbn in Hs. destruct k as [[[t v kids]|] a]; [|done]. cbn in Hs. destruct (kids !! i) as [ki|] eqn:Hi; [|done].
    cbn [put_at fst snd]. destruct L as [|L]; [done|]. cbn in Hc |- *. destruct Hc as [H1 H2]. split.
    + intros j kj Hj Hne. rewrite list_lookup_alter_ne in Hj by done. by eapply H1.
    + intros ki' Hi'. rewrite list_lookup_alter, Hi in Hi'. simplify_eq/=. rewrite <- app_assoc.
      eapply IH; [|exact Hs|].
      * rewrite app_assoc. by apply H2.
      * intros L'. rewrite <- app_assoc. apply Hk.
Qed.

Context (HS : ShapeReq Sh) (HF : Fixed Sh) (HA : AllocReq E).

(** The assignment of a node's data. *)
Lemma value_step l o v v1 b bo s :
  blocks s !! l = Some b -> b_obj b = OLive (tT E) v -> blocks s !! o = Some bo -> b_obj bo = OLive (tT E) v1 -> o <> l ->
  match run (act_thr (PAsgn (tT E) l (ARef ConstL (RBlk o)))) s with
  | ORet _ s' => blocks s' = <[l := set_obj (OLive (tT E) (t_asgn E ConstL (tT E) (tT E) v v1).1) b]> (blocks s) /\
      wraps s' = wraps s /\ exts s' = exts s
  | OThrow _ s' => blocks s' = <[l := set_obj (OLive (tT E) (t_asgn_fail E ConstL (tT E) (tT E) v v1).1) b]> (blocks s) /\
      wraps s' = wraps s /\ exts s' = exts s
  | _ => False
  end.
Proof.
  intros Hb Hobj Hbo Hobjo Hol. cbn [act_thr run exec deref].
  rewrite Hb, Hobj. rewrite bool_decide_eq_true_2 by done. cbn [negb asgn_vals].
  rewrite bool_decide_eq_false_2 by congruence. cbn [deref]. rewrite Hbo, Hobjo.
  destruct (t_asgn E ConstL _ _ v v1) as [d1 d2] eqn:Hd. destruct (t_asgn_fail E ConstL _ _ v v1) as [df df2] eqn:Hdf.
  assert (Hupd : forall s0 v', blocks s0 = blocks s -> blocks (upd_ref (RBlk l) v' s0) = <[l := set_obj (OLive (tT E) v') b]> (blocks s)).
  { intros s0 v' Hs0. cbn. rewrite Hs0. apply map_eq. intros i. destruct (decide (l = i)) as [<-|Hne].
    - by rewrite lookup_alter, Hb, lookup_insert; cbn; rewrite Hobj.
    - by rewrite lookup_alter_ne, lookup_insert_ne. }
  destruct (pop_eq s) as (r & orc' & -> & _). destruct r as [h|e]; cbn [upd_src run].
  - split_and!; [|done|done]. by apply Hupd.
  - split_and!; [|done|done]. by apply Hupd.
Qed.
(** What an assignment [y = x], with [y] at [p] in the value of [x], makes of [y], as far as it is
    determined: where a copy is made, [y] holds what [x] held; in place, its data, and its members
    except the one on the path, are those of [x], but further along the path it holds the data
    of [x] where [x] held [y]. *)
Definition up_value (h : header) (p : list nat) (kx ky ky' : wst) : Prop :=
  (in_place (header_cls h) ky kx = false -> forall q, seen h ky' q = seen h kx q) /\
  (in_place (header_cls h) ky kx = true -> seen h ky' p = seen h kx [] /\
     forall j q, head p <> Some j -> seen h ky' (j :: q) = seen h kx (j :: q)) /\
  (forall p1 p2, p = p1 ++ p2 -> p2 <> [] -> seen h ky' p1 = seen h kx p1).

Lemma up_all n : forall p h x y kx ky L b Bx Wx By Wy s,
  placed_all s -> p <> [] -> wrap_heap h x kx Bx Wx -> wrap_heap h y ky By Wy ->
  Bx ⊆ blocks s -> Wx ⊆ wraps s -> By ⊆ blocks s -> Wy ⊆ wraps s -> chained L b kx p -> L + b <= n ->
  sub_at_path Sh h kx p = Some (h, ky) -> walk s x p = Some y ->
  match run (i_copy_assign (node_impl n h) y x) s with
  | ORet _ s' => exists ky' B' W', wrap_heap h y (ky', na ky.2 kx.2) B' W' /\ replaced s s' By Wy B' W' /\
      (values_kept (E := E) -> up_value h p kx ky (ky', na ky.2 kx.2))
  | OThrow _ s' => exists ky' B' W', wrap_heap h y (ky', ky.2) B' W' /\ replaced s s' By Wy B' W'
  | _ => False
  end.
Proof.
  induction n as [|n IH]; intros p h x y kx ky L b0 Bx Wx By Wy s HP Hp Hx Hy HB HW HBy HWy Hc HL Hsub Hwalk.
  { destruct p as [|i p]; [done|]. cbn in Hsub. destruct kx as [[[]|] a]; [|done]. assert (L = 0) as -> by lia. done. }
  assert (Hfx : fits (S n) kx.1). { apply (fits_le (L + b0)); [done|]. by eapply chained_fits. }
  assert (Hfy := sub_fits _ _ _ _ _ _ _ Hsub Hfx).
  destruct (take_at Sh p h x kx Bx Wx h ky Hx Hsub) as (y' & By' & Wy' & R0 & S0 & Hy' & EB & EW & D1 & D2 & Hwk & HxS & _).
  assert (y' = y) as ->. { specialize (Hwk s). feed specialize Hwk; [rewrite EW in HW; clear - HW D2; map_solve|congruence]. }
  destruct (heap_fun _ _ _ _ _ Hy _ _ _ (blocks s) (wraps s) Hy') as (_ & <- & <-);
    [done|rewrite EB in HB; clear - HB; map_solve|done|rewrite EW in HW; clear - HW; map_solve|].
  destruct (HxS Hp) as [_ HxWy]. clear Hy' R0 S0 EB EW D1 D2 Hwk HxS.
  destruct p as [|i p]; [done|]. clear Hp.
  destruct kx as [[[t v kids]|] a]; [|done].
  destruct (in_place (header_cls h) ky (Some (TNode t v kids), a)) eqn:Hip.
  2:{ (* a copy is made *)
    assert (HC := copy_any Sh HS (S n) h y x ky (TNode t v kids) a By Wy Bx Wx s (placed_mem_ok _ _ HP) Hy Hx HxWy HBy HWy HB HW Hfy Hfx Hip).
    destruct (run _ s) as [u s'|e s'| |]; [| |done|done].
    - destruct HC as (B' & W' & Hw & RR). eexists _, B', W'. split_and!; [exact Hw|done|]. intros [HV HV'].
      unfold up_value. rewrite Hip. split_and!; [|done|]; intros; by apply (sub_copy_path Sh HV _ h (na ky.2 a) (Some (TNode t v kids), a)).
    - exists ky.1, By, Wy. destruct ky. split; [done|]. by apply same_replaced. }
  (* in place *)
  assert (Hxy : y <> x) by (destruct (wrap_in _ _ _ _ _ _ Hy); congruence).
  assert (Hip0 := Hip). unfold in_place in Hip. destruct (header_cls h) eqn:Hcls; [|done].
  destruct (t_assignable E) eqn:Hasg; [|done]. destruct ky as [[[t1 v1 ks]|] ay]; [|done]. cbn [fst snd] in Hip, HxWy |- *.
  assert (Hx0 := Hx). assert (Hy0 := Hy).
  apply wrap_inv in Hx as (l & b & B1 & W1 & -> & -> & HBl & HWx & Hok & Hlen & Hm). rewrite Hcls in Hok.
  assert (t = tT E) as -> by (by apply Hok).
  apply wrap_inv in Hy as (o & bo & B2 & W2 & -> & -> & HBo & HWy' & Hoko & Hleny & Hmy). rewrite Hcls in Hoko.
  assert (t1 = tT E) as -> by (by apply Hoko).
  assert (Hxs : wraps s !! x = Some (mkW (PLoc l) a)) by (eapply lookup_weaken; [|exact HW]; apply lookup_insert).
  assert (Hys : wraps s !! y = Some (mkW (PLoc o) ay)) by (eapply lookup_weaken; [|exact HWy]; apply lookup_insert).
  assert (Hb : blocks s !! l = Some b) by (eapply lookup_weaken; [|exact HB]; apply lookup_insert).
  assert (Hbo : blocks s !! o = Some bo) by (eapply lookup_weaken; [|exact HBy]; apply lookup_insert).
  assert (Hobj : b_obj b = OLive (tT E) v) by (by apply Hok).
  assert (Hobjo : b_obj bo = OLive (tT E) v1) by (by apply Hoko).
  assert (Hsub0 := Hsub). cbn [sub_at_path fst] in Hsub. destruct (kids !! i) as [k|] eqn:Hki; [|done].
  cbn [walk] in Hwalk. rewrite Hxs in Hwalk.
  destruct L as [|L]; [done|]. assert (Hc0 := Hc). cbn in Hc. destruct Hc as [Hsides Hcz]. specialize (Hcz _ Hki).
  (* the members of x *)
  assert (Hil := lookup_lt_Some _ _ _ Hki).
  assert (Hkids : kids = take i kids ++ k :: drop (S i) kids) by (by rewrite take_drop_middle).
  assert (Hcf : length (take i kids) = i) by (rewrite take_length; lia).
  set (cf := take i kids) in *. set (cb := drop (S i) kids) in *. clearbody cf cb. 
  assert (Hm' := Hm). rewrite Hkids in Hm'.
  apply mem_app_inv in Hm' as (Bf & Wf & Br & Wr & -> & -> & DBf & DWf & Hmf & Hr). cbn [Nat.add] in Hr. rewrite Hcf in Hr.
  apply mem_cons_inv in Hr as (Bk & Wk & Bb & Wb & -> & -> & DBb & DWb & Hk & Hmb).
  assert (HBk : Bk ⊆ blocks s) by (clear - HB HBl DBf; map_solve).
  assert (HWk : Wk ⊆ wraps s) by (clear - HW HWx DWf; map_solve).
  (* y in member i *)
  destruct (take_at Sh p _ _ k Bk Wk h _ Hk Hsub) as (y' & By' & Wy'' & R & S' & Hy' & EB & EW & D1 & D2 & Hwk & _ & Hplug).
  assert (y' = y) as ->. { specialize (Hwk s). feed specialize Hwk; [rewrite EW in HWk; clear - HWk D2; map_solve|congruence]. }
  destruct (heap_fun _ _ _ _ _ Hy0 _ _ _ (blocks s) (wraps s) Hy') as (_ & <- & <-);
    [done|rewrite EB in HBk; clear - HBk; map_solve|done|rewrite EW in HWk; clear - HWk; map_solve|].
  clear Hy'.
  assert (Hol : o <> l).
  { intros ->. clear - HBl EB. subst Bk. at_norm. rewrite decide_True in HBl by done. by destruct (Bf !! l). }
  (* the members of y *)
  assert (Hlk : length ks = i + S (length cb)).
  { rewrite Hleny, (HF _ v1 v), <- Hlen, Hkids, app_length, Hcf. done. }
  destruct (lookup_lt_is_Some_2 ks i) as [k1 Hk1]; [lia|].
  assert (Hks : ks = take i ks ++ k1 :: drop (S i) ks) by (by rewrite take_drop_middle).
  assert (Hds : length (take i ks) = i) by (rewrite take_length; lia).
  set (ds := take i ks) in *. set (es := drop (S i) ks) in *. clearbody ds es.
  assert (Hes : length es = length cb). { rewrite Hks, app_length in Hlk. cbn in Hlk. lia. }
  assert (Hmy' := Hmy). rewrite Hks in Hmy'.
  apply mem_app_inv in Hmy' as (Bd & Wd & Br & Wr & -> & -> & DBd & DWd & Hmd & Hr). cbn [Nat.add] in Hr. rewrite Hds in Hr.
  apply mem_cons_inv in Hr as (Bi & Wi & Be & We & -> & -> & DBe & DWe & Hi & Hme).
  assert (Hffx : Forall (fun k => fits n k.1) kids) by (exact Hfx).
  assert (Hffy : Forall (fun k => fits n k.1) ks) by (exact Hfy).
  rewrite Hkids in Hffx. apply Forall_app in Hffx as [Hfcf Hfr]. apply Forall_cons in Hfr as [Hfk Hfcb].
  rewrite Hks in Hffy. apply Forall_app in Hffy as [Hfds Hfr]. apply Forall_cons in Hfr as [Hfk1 Hfes].
  (* disjointness *)
  assert (DYf : <[o := bo]> (Bd ∪ (Bi ∪ Be)) ##ₘ Bf /\ <[o := bo]> (Bd ∪ (Bi ∪ Be)) ##ₘ Bb).
  { rewrite EB in DBf, DBb. clear - DBf DBb. split; map_solve. }
  assert (DZf : <[y := mkW (PLoc o) ay]> (Wd ∪ (Wi ∪ We)) ##ₘ Wf /\ <[y := mkW (PLoc o) ay]> (Wd ∪ (Wi ∪ We)) ##ₘ Wb).
  { rewrite EW in DWf, DWb. clear - DWf DWb. split; map_solve. }
  destruct DYf as [DYf DYb]. destruct DZf as [DZf DZb].
  assert (HBf : Bf ⊆ blocks s) by (clear - HB HBl DBf; map_solve).
  assert (HWf : Wf ⊆ wraps s) by (clear - HW HWx DWf; map_solve).
  assert (HBb : Bb ⊆ blocks s) by (clear - HB HBl DBf DBb; map_solve).
  assert (HWb : Wb ⊆ wraps s) by (clear - HW HWx DWf DWb; map_solve).
  assert (HRs : R ⊆ blocks s) by (rewrite EB in HBk; clear - HBk D1; map_solve).
  assert (HSs : S' ⊆ wraps s) by (rewrite EW in HWk; clear - HWk D2; map_solve).
  (* the data *)
  erewrite (in_place_run_any Sh HF n h y x ay o a l v1 v bo b s) by done.
  rewrite run_bind, run_bind.
  assert (HVS := value_step o l v1 v bo b s Hbo Hobjo Hb Hobj (not_eq_sym Hol)).
  destruct (run (act_thr _) s) as [u1 s1|e s1| |]; [| |done|done].
  2:{ destruct HVS as (V1 & V2 & V3).
      eexists (Some (TNode (tT E) _ ks)), _, _. split.
      - constructor; [|by rewrite Hleny; apply HF|exact Hmy|done|done]. rewrite Hcls.
        instantiate (1 := set_obj (OLive (tT E) (t_asgn_fail E ConstL (tT E) (tT E) v1 v).1) bo).
        destruct Hoko as (? & ? & ? & ? & ?). by split_and!.
      - split; rewrite ?V1, ?V2, ?V3; [clear - HBy HBo|clear - HWy|done|clear - HBy|clear - HWy]; map_solve. }
  destruct HVS as (V1 & V2 & V3).
  set (d1 := (t_asgn E ConstL (tT E) (tT E) v1 v).1) in *.
  set (bo1 := set_obj (OLive (tT E) d1) bo) in *.
  assert (Hok1 : block_ok Ind o (tT E) d1 ay bo1) by (destruct Hoko as (? & ? & ? & ? & ?); by split_and!).
  clearbody bo1.
  set (B2 := Bd ∪ (Bi ∪ Be)) in *. set (W2 := Wd ∪ (Wi ∪ We)) in *.
  assert (Hput : forall s3 ds' k' es' Bd' Wd' Bi' Wi' Be' We', length ds' = i -> length es' = length es ->
     mem_heap hs (WMem o) 0 ds' Bd' Wd' -> wrap_heap (hs i) (WMem o i) k' Bi' Wi' -> mem_heap hs (WMem o) (S i) es' Be' We' ->
     Bd' ##ₘ Bi' ∪ Be' -> Wd' ##ₘ Wi' ∪ We' -> Bi' ##ₘ Be' -> Wi' ##ₘ We' ->
     replaced s1 s3 B2 W2 (Bd' ∪ (Bi' ∪ Be')) (Wd' ∪ (Wi' ∪ We')) ->
     wrap_heap h y (Some (TNode (tT E) d1 (ds' ++ k' :: es')), ay) (<[o := bo1]> (Bd' ∪ (Bi' ∪ Be'))) (<[y := mkW (PLoc o) ay]> (Wd' ∪ (Wi' ∪ We'))) /\
     replaced s s3 (<[o := bo]> B2) (<[y := mkW (PLoc o) ay]> W2)
       (<[o := bo1]> (Bd' ∪ (Bi' ∪ Be'))) (<[y := mkW (PLoc o) ay]> (Wd' ∪ (Wi' ∪ We')))).
  { intros s3 ds' k' es' Bd' Wd' Bi' Wi' Be' We' Hl1 Hl2 M1 M2 M3 X1 X2 X3 X4 [Q1 Q2 Q3 Q4 Q5].
    set (B3 := Bd' ∪ (Bi' ∪ Be')) in *. set (W3 := Wd' ∪ (Wi' ∪ We')) in *.
    assert (HB3 : B3 !! o = None).
    { apply (fun Q => dis_at _ _ o Q) in Q4. rewrite lookup_diff, HBo, V1, lookup_insert in Q4. by destruct Q4. }
    assert (HW3 : W3 !! y = None).
    { apply (fun Q => dis_at _ _ y Q) in Q5. rewrite lookup_diff, HWy', V2, Hys in Q5. by destruct Q5. }
    split.
    - constructor; [by rewrite Hcls| | |done|done].
      + rewrite app_length. cbn [length]. rewrite Hl1, Hl2, Hes, (HF _ d1 v1), <- Hleny. lia.
      + apply mem_app; [done| |done|done]. cbn [Nat.add]. rewrite Hl1. by constructor.
    - split; [rewrite Q1, V1|rewrite Q2, V2|congruence| |].
      + clear - HB3 HBo. map_solve.
      + clear - HW3 HWy' Hys. map_solve.
      + rewrite V1 in Q4. clear - Q4 HBo. map_solve.
      + rewrite V2 in Q5. clear - Q5 HWy' Hys. map_solve. }
  assert (HBdo : Bd !! o = None /\ Bi !! o = None /\ Be !! o = None).
  { clear - HBo. subst B2. at_norm. destruct (Bd !! o), (Bi !! o), (Be !! o); done. }
  destruct HBdo as (HBdo & HBio & HBeo).
  assert (HWdy : Wd !! y = None /\ Wi !! y = None /\ We !! y = None).
  { clear - HWy'. subst W2. at_norm. destruct (Wd !! y), (Wi !! y), (We !! y); done. }
  destruct HWdy as (HWdy & HWiy & HWey).
  assert (HB21 : B2 ⊆ blocks s1) by (rewrite V1; clear - HBy HBo; map_solve).
  assert (HW21 : W2 ⊆ wraps s1) by (rewrite V2; clear - HWy HWy'; map_solve).
  assert (HBf1 : Bf ⊆ blocks s1) by (rewrite V1; clear - HBf DYf; map_solve).
  assert (HWf1 : Wf ⊆ wraps s1) by (by rewrite V2).
  assert (HBb1 : Bb ⊆ blocks s1) by (rewrite V1; clear - HBb DYb; map_solve).
  assert (HWb1 : Wb ⊆ wraps s1) by (by rewrite V2).
  assert (HP1 : placed_all s1).
  { intros u Hu. rewrite V2 in Hu. specialize (HP u Hu). destruct u as [m|l' i']; [done|]. destruct HP as (b' & Hb' & Hi'). cbn.
    rewrite V1. destruct (decide (o = l')) as [<-|Hne].
    - rewrite lookup_insert. eexists. split; [done|]. intros t' v' Hv. destruct Hok1 as (_ & Hob1 & _).
      assert (t' = tT E) as -> by congruence. rewrite (HF (tT E) v' v1). simplify_eq. by apply Hi'.
    - rewrite lookup_insert_ne by done. eauto. }
  assert (Hplo : forall s', W2 ⊆ wraps s' -> placed_all s' -> forall j, j < length ks -> placed s' (WMem o j)).
  { intros s' HW2 HP' j Hj. apply HP'. destruct (mem_in_gen _ _ _ _ _ _ _ Hmy j) as [q Hq]; [cbn; lia|].
    exists q. by eapply lookup_weaken. }
  (* the members before i *)
  rewrite Hleny in Hlk. rewrite Hlk, assign_app, run_bind.
  assert (CL := casg_loop Sh n hs (WMem o) (WMem l) 0 ds cf Bd Wd Bf Wf s1 (casg_all Sh HS HF HA n) HP1).
  feed specialize CL; [congruence| |done|done| | | | |done|done|done|done|].
  { intros j Hj. apply Hplo; [done|done|]. rewrite Hleny, Hlk. lia. }
  { clear - DYf HBdo. subst B2. map_solve. }
  { clear - DZf HWdy. subst W2. map_solve. }
  { clear - HB21. subst B2. map_solve. }
  { clear - HW21. subst W2. map_solve. }
  rewrite Hds in CL.
  assert (DBd' : Bd ##ₘ Bi ∪ Be) by done. assert (DWd' : Wd ##ₘ Wi ∪ We) by done.
  assert (HBie : Bi ∪ Be ⊆ blocks s1) by (clear - HB21 DBd'; subst B2; map_solve).
  assert (HWie : Wi ∪ We ⊆ wraps s1) by (clear - HW21 DWd'; subst W2; map_solve).
  destruct (run (assign_members _ 0 i) s1) as [u2 s2|e s2| |]; [| |done|done].
  2:{ destruct CL as (ds' & B' & W' & Hm1 & Hl1 & _ & RR & _).
      destruct (replaced_frame _ _ _ _ _ _ (Bi ∪ Be) (Wi ∪ We) RR DBd' DWd' HBie HWie) as (RF & X1 & X2 & _).
      destruct (Hput s2 ds' k1 es B' W' Bi Wi Be We) as [H1 H2]; [congruence|done..|].
      eexists _, _, _. split; [exact H1|exact H2]. }
  destruct CL as (Bd1 & Wd1 & Hmd1 & RR1).
  assert (Hlds : length (asg_ws Sh hs 0 cf ds) = i) by (rewrite asg_ws_len; congruence).
  destruct (replaced_frame _ _ _ _ _ _ (Bi ∪ Be) (Wi ∪ We) RR1 DBd' DWd' HBie HWie) as (RF1 & X1 & X2 & HBie2 & HWie2).
  destruct (Hput s2 _ k1 es Bd1 Wd1 Bi Wi Be We Hlds eq_refl Hmd1 Hi Hme X1 X2 DBe DWe RF1) as [Hy2 RY2].
  set (y2 := (Some (TNode (tT E) d1 (asg_ws Sh hs 0 cf ds ++ k1 :: es)), ay)) in *.
  assert (HP2 : placed_all s2).
  { eapply (placed_all_replaced Sh h y); [exact Hy0|exact Hy2|exact RY2|done| |done]. apply HP. by eexists. }
  (* member i *)
  destruct (replaced_frame _ _ _ _ _ _ R S' RY2 D1 D2 HRs HSs) as (RFz & X3 & X4 & HR2 & HS2).
  assert (Hz2 := Hplug _ _ _ Hy2 X3 X4).
  assert (HI := IH (p ++ [i]) (hs i) (WMem l i) (WMem o i) (put_at k p y2) k1 L b0 (<[o := bo1]> (Bd1 ∪ (Bi ∪ Be)) ∪ R)
    (<[y := mkW (PLoc o) ay]> (Wd1 ∪ (Wi ∪ We)) ∪ S') Bi Wi s2 HP2).
  feed specialize HI; [by destruct p|exact Hz2|exact Hi| | | | | |lia| | |].
  { rewrite (rp_b _ _ _ _ _ _ RFz). clear. map_solve. }
  { rewrite (rp_w _ _ _ _ _ _ RFz). clear. map_solve. }
  { clear - HBie2. map_solve. }
  { clear - HWie2. map_solve. }
  { eapply chained_put; [exact Hcz|exact Hsub|]. intros L' HcL. destruct L' as [|L']; [done|]. cbn in HcL |- *.
    destruct HcL as [Y1 Y2]. subst y2. split.
    - intros j kj Hj Hne. destruct (decide (j < i)) as [Hlt|Hge].
      + rewrite lookup_app_l in Hj by lia. rewrite asg_ws_lookup in Hj by congruence.
        destruct (cf !! j) as [kc|] eqn:Hcj; [|done]. destruct (ds !! j) as [kd|] eqn:Hdj; [|done]. injection Hj as <-.
        apply asg_w_fits.
        * eapply Y1; [|exact Hne]. rewrite Hks. by apply lookup_app_l_Some.
        * eapply Hsides; [|exact Hne]. rewrite Hkids. by apply lookup_app_l_Some.
      + eapply Y1; [|exact Hne]. rewrite Hks. rewrite lookup_app_r in Hj |- * by lia. by rewrite Hlds in Hj; rewrite Hds.
    - intros ki Hki'. apply Y2. rewrite Hks. rewrite lookup_app_r in Hki' |- * by lia. by rewrite Hlds in Hki'; rewrite Hds. }
  { rewrite sub_app, (sub_put Sh _ _ _ _ _ _ Hsub). subst y2. cbn. rewrite lookup_app_r by lia. by rewrite Hlds, Nat.sub_diag. }
  { rewrite walk_app, (Hwk s2 HS2). cbn. rewrite (rp_w _ _ _ _ _ _ RY2), lookup_un, lookup_insert. by destruct (_ !! y). }
  cbn [assign_members]. rewrite run_bind. cbn [Nat.add].
  assert (HBi1 : Bi ⊆ blocks s1) by (clear - HBie; map_solve). assert (HWi1 : Wi ⊆ wraps s1) by (clear - HWie; map_solve).
  assert (DBdi : Bd ##ₘ Bi) by (clear - DBd'; map_solve). assert (DWdi : Wd ##ₘ Wi) by (clear - DWd'; map_solve).
  assert (HBe1 : Be ⊆ blocks s1) by (clear - HBie DBe; map_solve). assert (HWe1 : We ⊆ wraps s1) by (clear - HWie DWe; map_solve).
  assert (DBde : Bd ∪ Bi ##ₘ Be) by (clear - DBd' DBe; map_solve). assert (DWde : Wd ∪ Wi ##ₘ We) by (clear - DWd' DWe; map_solve).
  destruct (run (i_copy_assign _ _ _) s2) as [u3 s3|e s3| |]; [| |done|done].
  2:{ destruct HI as (k' & Bi' & Wi' & Hi' & RR2).
      destruct (replaced_trans _ _ _ _ _ _ _ _ _ _ _ RR1 RR2 DBdi DWdi HBi1 HWi1) as (RT & X5 & X6).
      destruct (replaced_frame _ _ _ _ _ _ Be We RT DBde DWde HBe1 HWe1) as (RF2 & X7 & X8 & _).
      rewrite <- !(assoc_L (∪)) in RF2.
      destruct (Hput s3 _ (k', k1.2) es Bd1 Wd1 Bi' Wi' Be We Hlds eq_refl Hmd1 Hi' Hme) as [H1 H2];
        [clear - X5 X7; map_solve|clear - X6 X8; map_solve|clear - X7; map_solve|clear - X8; map_solve|exact RF2|].
      eexists _, _, _. split; [exact H1|exact H2]. }
  destruct HI as (k' & Bi' & Wi' & Hi' & RR2 & HVal).
  destruct (replaced_trans _ _ _ _ _ _ _ _ _ _ _ RR1 RR2 DBdi DWdi HBi1 HWi1) as (RT & X5 & X6).
  destruct (replaced_frame _ _ _ _ _ _ Be We RT DBde DWde HBe1 HWe1) as (RF2 & X7 & X8 & HBe3 & HWe3).
  assert (RF2' := RF2). rewrite <- !(assoc_L (∪)) in RF2'.
  destruct (Hput s3 _ (k', na k1.2 (put_at k p y2).2) es Bd1 Wd1 Bi' Wi' Be We Hlds eq_refl Hmd1 Hi' Hme) as [Hy3 RY3];
    [clear - X5 X7; map_solve|clear - X6 X8; map_solve|clear - X7; map_solve|clear - X8; map_solve|exact RF2'|].
  assert (HP3 : placed_all s3).
  { eapply (placed_all_replaced Sh h y); [exact Hy0|exact Hy3|exact RY3|done| |done]. apply HP. by eexists. }
  (* the members after i *)
  destruct (replaced_frame _ _ _ _ _ _ Bb Wb RY3 DYb DZb HBb HWb) as (_ & X9 & X10 & HBb3 & HWb3).
  assert (CL := casg_loop Sh n hs (WMem o) (WMem l) (S i) es cb Be We Bb Wb s3 (casg_all Sh HS HF HA n) HP3).
  feed specialize CL; [done| |done|done| | |done|done|done|done|done|done|].
  { intros j Hj. apply HP3. destruct (mem_in_gen _ _ _ _ _ _ _ Hme j Hj) as [q Hq]. exists q. by eapply lookup_weaken. }
  { clear - DYb HBeo. subst B2. map_solve. }
  { clear - DZb HWey. subst W2. map_solve. }
  rewrite <- Hes.
  destruct (run (assign_members _ (S i) (length es)) s3) as [u4 s4|e s4| |]; [| |done|done].
  2:{ destruct CL as (es' & B' & W' & Hm1 & Hl1 & _ & RR3 & _).
      destruct (replaced_trans _ _ _ _ _ _ _ _ _ _ _ RT RR3 DBde DWde HBe1 HWe1) as (RT2 & X11 & X12).
      rewrite <- !(assoc_L (∪)) in RT2.
      destruct (Hput s4 _ (k', na k1.2 (put_at k p y2).2) es' Bd1 Wd1 Bi' Wi' B' W' Hlds Hl1 Hmd1 Hi' Hm1) as [H1 H2];
        [clear - X5 X11; map_solve|clear - X6 X12; map_solve|clear - X11; map_solve|clear - X12; map_solve|exact RT2|].
      eexists _, _, _. split; [exact H1|exact H2]. }
  destruct CL as (Be' & We' & Hme' & RR3).
  assert (Hles : length (asg_ws Sh hs (S i) cb es) = length es) by (by rewrite asg_ws_len).
  destruct (replaced_trans _ _ _ _ _ _ _ _ _ _ _ RT RR3 DBde DWde HBe1 HWe1) as (RT2 & X11 & X12).
  rewrite <- !(assoc_L (∪)) in RT2.
  destruct (Hput s4 _ (k', na k1.2 (put_at k p y2).2) _ Bd1 Wd1 Bi' Wi' Be' We' Hlds Hles Hmd1 Hi' Hme') as [Hy4 RY4];
    [clear - X5 X11; map_solve|clear - X6 X12; map_solve|clear - X11; map_solve|clear - X12; map_solve|exact RT2|].
  (* the value *)
  assert (Hvalue : forall a', values_kept (E := E) ->
    up_value h (i :: p) (Some (TNode (tT E) v kids), a) (Some (TNode (tT E) v1 ks), ay)
      (Some (TNode (tT E) d1 (asg_ws Sh hs 0 cf ds ++ (k', na k1.2 (put_at k p y2).2) :: asg_ws Sh hs (S i) cb es)), a')).
  { intros a' HVK. assert (HVK' := HVK). destruct HVK' as [HV HV']. assert (HD : d1 = v) by (apply HV').
    specialize (HVal HVK) as (_ & _ & HVal). unfold up_value. rewrite Hcls, Hip0.
    assert (Hsi : forall q, seen h (Some (TNode (tT E) d1 (asg_ws Sh hs 0 cf ds ++ (k', na k1.2 (put_at k p y2).2) :: asg_ws Sh hs (S i) cb es)), a') (i :: q)
      = seen (hs i) (k', na k1.2 (put_at k p y2).2) q).
    { intros q. cbn [sub_at_path fst]. rewrite lookup_app_r by lia. by rewrite Hlds, Nat.sub_diag. }
    split_and!; [done| |].
    - intros _. split.
      + rewrite Hsi, (HVal p [i] eq_refl) by done. rewrite (sub_put Sh _ _ _ _ _ _ Hsub). subst y2. cbn. by rewrite HD.
      + intros j q Hj. cbn [head] in Hj. assert (Hne : j <> i) by congruence.
        assert (Hshx := wrap_shaped Sh _ _ _ _ _ Hx0). assert (Hshy := wrap_shaped Sh _ _ _ _ _ Hy0).
        unfold shaped_w in Hshx, Hshy. cbn [fst] in Hshx, Hshy. rewrite shaped_eq in Hshx, Hshy.
        destruct Hshx as (_ & _ & Hshx). destruct Hshy as (_ & _ & Hshy).
        cbn [sub_at_path fst].
        assert (Hlook : (asg_ws Sh hs 0 cf ds ++ (k', na k1.2 (put_at k p y2).2) :: asg_ws Sh hs (S i) cb es) !! j =
          match kids !! j, ks !! j with Some kj, Some dj => Some (asg_w Sh (header_cls (hs j)) dj kj) | _, _ => None end).
        { rewrite Hkids, Hks. destruct (decide (j < i)) as [Hlt|Hge].
          - rewrite !lookup_app_l by lia. rewrite asg_ws_lookup by congruence. done.
          - rewrite !lookup_app_r by lia. rewrite Hlds, Hcf, Hds. destruct (j - i) as [|m] eqn:Hm0; [lia|].
            change (asg_ws Sh hs (S i) cb es !! m = match cb !! m, es !! m with Some kj, Some dj => Some (asg_w Sh (header_cls (hs j)) dj kj) | _, _ => None end).
            rewrite asg_ws_lookup by congruence. by replace (S i + m) with j by lia. }
        rewrite Hlook. destruct (kids !! j) as [kj|] eqn:Hkj; [|done].
        destruct (lookup_lt_is_Some_2 ks j) as [dj Hdj].
        { rewrite Hleny, (HF _ v1 v), <- Hlen. by eapply lookup_lt_Some. }
        rewrite Hdj. apply (asg_path Sh HF HV HV').
        * apply (shaped_ws_lookup Sh hs 0 ks j dj Hshy Hdj).
        * apply (shaped_ws_lookup Sh hs 0 kids j kj Hshx Hkj).
    - intros p1 p2 Hp12 Hp2. destruct p1 as [|i0 p1]; [cbn; by rewrite HD|]. cbn in Hp12. injection Hp12 as <- ->.
      rewrite Hsi, (HVal p1 (p2 ++ [i])); [|by rewrite app_assoc|by destruct p2].
      rewrite seen_above by done. cbn [sub_at_path fst]. by rewrite Hki. }
  (* the allocator *)
  set (B3 := Bd1 ∪ (Bi' ∪ Be')) in *. set (W3 := Wd1 ∪ (Wi' ∪ We')) in *.
  assert (HW3y : W3 !! y = None).
  { assert (HX := dis_at _ _ y (rp_dw _ _ _ _ _ _ RT2)). fold W2 W3 in HX. rewrite lookup_diff, HWy', V2, Hys in HX. by destruct HX. }
  assert (Hy4s : wraps s4 !! y = Some (mkW (PLoc o) ay)).
  { rewrite (rp_w _ _ _ _ _ _ RY4), lookup_un, lookup_insert. by destruct (_ !! y). }
  assert (Hx4s : wraps s4 !! x = Some (mkW (PLoc l) a)).
  { assert (HX := dis_at _ _ x (rp_dw _ _ _ _ _ _ RY4)). rewrite lookup_diff, HxWy, Hxs in HX. destruct HX as [HX|]; [|done].
    rewrite (rp_w _ _ _ _ _ _ RY4), lookup_un, HX, lookup_diff, HxWy, Hxs. done. }
  unfold na, sel at 1. destruct (pocca E) eqn:Hca.
  2:{ cbn [run]. eexists _, _, _. split_and!; [exact Hy4|exact RY4|apply Hvalue]. }
  erewrite st_readA by done. cbv beta. cbn [act run exec]. rewrite Hy4s. cbn [w_p].
  eexists _, _, (<[y := mkW (PLoc o) a]> W3). split_and!; [| |apply Hvalue].
  - assert (HR := realloc Sh h y _ a _ _ (mkW (PLoc o) ay) Hy4). cbn [fst snd w_p] in HR. rewrite insert_insert in HR.
    apply HR; [by rewrite lookup_insert|by apply (ar_res _ HA)].
  - destruct RY4 as [Q1 Q2 Q3 Q4 Q5]. split; cbn [set_wraps blocks wraps exts]; [done|rewrite Q2|done|done|].
    + clear. map_solve.
    + clear - Q5. map_solve.
Qed.

Lemma seen_off p q h (k k' : wst) : ~ p `prefix_of` q -> seen h (put_at k p k') q = seen h k q.
Proof.
  revert q h k. induction p as [|i p IH]; intros q h k Hq; [exfalso; apply Hq; apply prefix_nil|].
  cbn. destruct k as [[[t v kids]|] a]; [|done]. destruct q as [|j q]; [done|]. cbn.
  destruct (decide (i = j)) as [<-|Hne].
  - rewrite list_lookup_alter. destruct (kids !! i); [|done]. cbn. apply IH. intros HX. by apply Hq, prefix_cons.
  - by rewrite list_lookup_alter_ne.
Qed.

(** As seen from [x]. *)
Lemma up_copy_all m n p h x y kx ky Bx Wx s :
  placed_all s -> p <> [] -> wrap_heap h x kx Bx Wx -> Bx ⊆ blocks s -> Wx ⊆ wraps s -> fits m kx.1 -> m + m <= n ->
  sub_at_path Sh h kx p = Some (h, ky) -> walk s x p = Some y ->
  match run (i_copy_assign (node_impl n h) y x) s with
  | ORet _ s' => exists ky' B' W', wrap_heap h x (put_at kx p ky') B' W' /\ replaced s s' Bx Wx B' W' /\
      (forall q, ~ p `prefix_of` q -> obs s' x q = obs s x q) /\
      (values_kept (E := E) -> (in_place (header_cls h) ky kx = false -> equal_trees s' y s x) /\
         (in_place (header_cls h) ky kx = true -> obs s' y p = obs s x [] /\
            forall j q, head p <> Some j -> obs s' y (j :: q) = obs s x (j :: q)))
  | OThrow _ s' => exists ky' B' W', wrap_heap h x (put_at kx p ky') B' W' /\ replaced s s' Bx Wx B' W' /\
      (forall q, ~ p `prefix_of` q -> obs s' x q = obs s x q) /\
      (in_place (header_cls h) ky kx = false -> blocks s' = blocks s /\ wraps s' = wraps s /\ exts s' = exts s)
  | _ => False
  end.
Proof.
  intros HP Hp Hx HB HW Hf Hmn Hsub Hwalk.
  destruct (take_at Sh p h x kx Bx Wx h ky Hx Hsub) as (y' & By & Wy & R & S & Hy & EB & EW & D1 & D2 & Hwk & HxS & Hplug).
  assert (y' = y) as ->. { specialize (Hwk s). feed specialize Hwk; [rewrite EW in HW; clear - HW D2; map_solve|congruence]. }
  assert (Px : placed s x). { destruct (wrap_in _ _ _ _ _ _ Hx) as [wx Hwx]. apply HP. exists wx. by eapply lookup_weaken. }
  assert (Hgo : forall s' ky' B' W', wrap_heap h y ky' B' W' -> replaced s s' By Wy B' W' ->
    placed_all s' /\ B' ⊆ blocks s' /\ W' ⊆ wraps s' /\
    exists B2 W2, wrap_heap h x (put_at kx p ky') B2 W2 /\ replaced s s' Bx Wx B2 W2 /\
      forall q, ~ p `prefix_of` q -> obs s' x q = obs s x q).
  { intros s' ky' B' W' Hw RR.
    destruct (replaced_frame _ _ _ _ _ _ R S RR D1 D2) as (RF & X1 & X2 & _);
      [rewrite EB in HB; clear - HB D1; map_solve|rewrite EW in HW; clear - HW D2; map_solve|].
    rewrite <- EB, <- EW in RF. assert (Hw2 := Hplug _ _ _ Hw X1 X2).
    assert (HP' : placed_all s') by (by eapply (placed_all_replaced Sh h x kx _ Bx Wx _ _ s s')).
    split_and!; [done|rewrite (rp_b _ _ _ _ _ _ RR); clear; map_solve|rewrite (rp_w _ _ _ _ _ _ RR); clear; map_solve|].
    eexists _, _. split_and!; [done|done|]. intros q Hq.
    rewrite (obs_heap Sh q h x _ _ _ s' HP' Hw2).
    2:{ rewrite (rp_b _ _ _ _ _ _ RF). clear. map_solve. }
    2:{ rewrite (rp_w _ _ _ _ _ _ RF). clear. map_solve. }
    rewrite (obs_heap Sh q h x _ _ _ s HP Hx HB HW). by apply seen_off. }
  assert (HBy : By ⊆ blocks s) by (rewrite EB in HB; clear - HB; map_solve).
  assert (HWy : Wy ⊆ wraps s) by (rewrite EW in HW; clear - HW; map_solve).
  assert (HC := up_all n p h x y kx ky m m Bx Wx By Wy s HP Hp Hx Hy HB HW HBy HWy (fits_chained m m kx p (le_n m) Hp Hf) Hmn Hsub Hwalk).
  assert (Hf' : fits n kx.1) by (apply (fits_le m); [lia|done]).
  assert (HC2 := up_copy Sh HS n p h x y kx ky Bx Wx s (placed_mem_ok _ _ HP) Hp Hx HB HW Hf' Hsub Hwalk).
  destruct (run _ s) as [u s'|e s'| |]; [| |done|done].
  - destruct HC as (k' & B' & W' & Hw & RR & Hval). destruct (Hgo _ _ _ _ Hw RR) as (HP' & HB' & HW' & B2 & W2 & G1 & G2 & G3).
    eexists _, B2, W2. split_and!; [done|done|done|]. intros HV. destruct (Hval HV) as (H1 & H2 & _). split.
    + intros Hip q. rewrite (obs_heap Sh q h y _ B' W' s' HP' Hw HB' HW'), (obs_heap Sh q h x _ _ _ s HP Hx HB HW). by apply H1.
    + intros Hip. destruct (H2 Hip) as [H3 H4]. split; intros;
        rewrite (obs_heap Sh _ h y _ B' W' s' HP' Hw HB' HW'), (obs_heap Sh _ h x _ _ _ s HP Hx HB HW); [done|by apply H4].
  - destruct HC as (k' & B' & W' & Hw & RR). destruct (Hgo _ _ _ _ Hw RR) as (HP' & HB' & HW' & B2 & W2 & G1 & G2 & G3).
    eexists _, B2, W2. split_and!; [done|done|done|]. intros Hip. by destruct (HC2 Hip).
Qed.
End up.
