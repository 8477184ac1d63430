(** * The operations of the class templates are tidy if the value type is. *)

From stdpp Require Import base gmap list.
From Verif Require Import Lang Common Client Spec Rep RunLemmas Headers Hist Tree TreeProps TreeAssign TreeAssignC TreeMove TreeMoveAssign.
From Verif Require Import Contract ContractProps ContractOps ContractMove ContractTidy.
From Verif Require Import Indirect20 Indirect14 Polymorphic20 Polymorphic14.

Section basic.
Context {E : Env}.
Implicit Types s : store E.

Lemma tidy_bind {X Y} (p : prog E X) (f : X -> prog E Y) s :
  tidy p s -> (forall x s', run p s = ORet x s' -> tidy (f x) s') -> tidy (bind p f) s.
Proof.
  revert s. induction p as [x|e|R a k IH]; intros s Hp Hf; simpl in *; [by apply Hf|done|].
  destruct Hp as [H1 H2]. split; [done|]. destruct (exec a s); [|done..]. by apply IH.
Qed.

Lemma tidy_catch {X} (p : prog E X) h s :
  tidy p s -> (forall e s', run p s = OThrow e s' -> tidy (h e) s') -> tidy (catch p h) s.
Proof.
  revert s. induction p as [x|e|R a k IH]; intros s Hp Hf; simpl in *; [done|by apply Hf|].
  destruct Hp as [H1 H2]. split; [done|]. destruct (exec a s); [|done..]. by apply IH.
Qed.

Lemma tidy_noexcept {X} b (p : prog E X) s : tidy p s -> tidy (noexcept_if b p) s.
Proof. intros Hp. destruct b; [|done]. apply tidy_catch; [done|]. intros e s' _. by simpl. Qed.

(** Programs that create no member wrapper and free nothing. *)
Fixpoint plain {X} (p : prog E X) : Prop :=
  match p with
  | Ret _ | Throw _ => True
  | Act a k => (forall s, tidy1 a s) /\ forall r, plain (k r)
  end.
Lemma plain_tidy {X} (p : prog E X) s : plain p -> tidy p s.
Proof.
  revert s. induction p as [x|e|R a k IH]; intros s Hp; simpl in *; [done..|].
  destruct Hp as [H1 H2]. split; [done|]. destruct (exec a s); [|done..]. by apply IH.
Qed.
Lemma plain_bind {X Y} (p : prog E X) (f : X -> prog E Y) : plain p -> (forall x, plain (f x)) -> plain (bind p f).
Proof. intros Hp Hf. induction p as [x|e|R a k IH]; simpl in *; [done..|]. destruct Hp as [H1 H2]. split; auto. Qed.
Lemma plain_catch {X} (p : prog E X) h : plain p -> (forall e, plain (h e)) -> plain (catch p h).
Proof. intros Hp Hf. induction p as [x|e|R a k IH]; simpl in *; [done..|]. destruct Hp as [H1 H2]. split; auto. Qed.
Lemma plain_noexcept {X} b (p : prog E X) : plain p -> plain (noexcept_if b p).
Proof. intros Hp. destruct b; [|done]. apply plain_catch; [done|]. intros e. by simpl. Qed.
Lemma plain_swap_p x y : plain (swap_p (E := E) x y).
Proof. by simpl. Qed.
Lemma plain_swap_a x y : plain (swap_a (E := E) x y).
Proof. by simpl. Qed.

(** Reading. *)
Lemma tdy_readA {X} w (f : eA E -> prog E X) s :
  (forall p a, wraps s !! w = Some (mkW p a) -> tidy (f a) s) -> tidy (bind (act (PReadA w)) f) s.
Proof. intros H. cbn. split; [done|]. destruct (wraps s !! w) as [[p a]|] eqn:Hw; [|done]. by apply (H p a). Qed.
Lemma tdy_readP {X} w (f : option loc -> prog E X) s :
  (forall p a, wraps s !! w = Some (mkW p a) -> p <> PIndet -> tidy (f (match p with PLoc l => Some l | _ => None end)) s) ->
  tidy (bind (act (PReadP w)) f) s.
Proof.
  intros H. cbn. split; [done|]. destruct (wraps s !! w) as [[p a]|] eqn:Hw; [|done].
  destruct p; [done|by apply (H PNull a)|by apply (H (PLoc l) a)].
Qed.
Lemma tdy_deref {X} w (f : loc -> prog E X) s :
  (forall l a, wraps s !! w = Some (mkW (PLoc l) a) -> tidy (f l) s) -> tidy (bind (deref_p w) f) s.
Proof.
  intros H. cbn. split; [done|]. destruct (wraps s !! w) as [[p a]|] eqn:Hw; [|done].
  destruct p; [done|done|]. by apply (H l a).
Qed.
Lemma tdy_valueless {X} w (f : bool -> prog E X) s :
  (forall p a, wraps s !! w = Some (mkW p a) -> tidy (f (match p with PLoc _ => false | _ => true end)) s) ->
  tidy (bind (Indirect20.valueless_after_move w) f) s.
Proof.
  intros H. cbn. split; [done|]. destruct (wraps s !! w) as [[p a]|] eqn:Hw; [|done].
  destruct p; [done|by apply (H PNull a)|by apply (H (PLoc l) a)].
Qed.
Lemma tdy_cbty {X} l (f : ty -> prog E X) s :
  (forall b t p, blocks s !! l = Some b -> b_hdr b = HCb t p -> tidy (f t) s) -> tidy (bind (act (PCbTy l)) f) s.
Proof.
  intros H. cbn. split; [done|]. destruct (blocks s !! l) as [b|] eqn:Hb; [|done]. destruct (b_hdr b) eqn:Hh; [done|]. by eapply H.
Qed.

Lemma tidy_ctor w p a (body : prog E unit) s :
  home s w -> (wraps s !! w = None -> tidy body (set_wraps (<[w := mkW p a]> (wraps s)) s)) -> tidy (ctor w p a body) s.
Proof.
  intros Hh Hb. unfold ctor. apply tidy_bind.
  - cbn. split; [by destruct w|]. by destruct (wraps s !! w).
  - intros [] s' Hr. cbn in Hr. destruct (wraps s !! w) eqn:Hw; [done|]. simplify_eq.
    apply tidy_catch; [by apply Hb|]. intros e s' _. by apply plain_tidy.
Qed.

Lemma alloc_run a bt s l s' : run (act_thr (PAlloc (E := E) a bt)) s = ORet l s' ->
  blocks s !! l = None /\ blocks s' = <[l := mkB a bt HNone ORaw]> (blocks s) /\ wraps s' = wraps s.
Proof.
  cbn. destruct (pop_eq s) as (r & orc' & -> & _). destruct r as [h|e]; cbn; [|done]. intros [= <- <-]. split; [|done].
  apply choose_fresh.
Qed.

(** ** Enclosure *)
Definition closed s (B : gmap loc (block E)) (W : gmap wl (wrapper E)) : Prop :=
  forall l i, is_Some (B !! l) -> is_Some (wraps s !! WMem l i) -> is_Some (W !! WMem l i).

Lemma closed_after s s' B W B' W' : mem_ok s -> closed s B W -> changed s s' B W B' W' -> closed s' B' W'.
Proof.
  intros HM Hcl [C1 C2 _ D1 D2] l i [b Hb] Hi. rewrite C2, lookup_un in Hi. destruct (W' !! WMem l i) eqn:HW'; [by eexists|].
  exfalso. rewrite lookup_diff in Hi. destruct (W !! WMem l i) eqn:HW; [by destruct Hi|].
  apply (fun Q => dis_at _ _ l Q) in D1. rewrite lookup_diff in D1. destruct D1 as [|D1]; [congruence|].
  destruct (B !! l) eqn:HB.
  - destruct (Hcl l i) as [q Hq]; [by eexists|done|congruence].
  - destruct (HM l i Hi) as [q Hq]. congruence.
Qed.

Lemma closed_frame s s' B W B' W' B0 W0 :
  changed s s' B W B' W' -> B0 ⊆ blocks s -> B0 ##ₘ B -> closed s B0 W0 ->
  (forall l i, is_Some (W' !! WMem l i) -> is_Some (B' !! l) \/ B0 !! l = None) -> closed s' B0 W0.
Proof.
  intros [C1 C2 _ D1 D2] Hs Hd Hcl HW' l i [b Hb] Hi. rewrite C2, lookup_un in Hi. destruct (W' !! WMem l i) eqn:Hw.
  - exfalso. destruct (HW' l i) as [[q Hq]|]; [by eexists| |congruence].
    destruct (dis_at _ _ l D1) as [|HX]; [congruence|]. rewrite lookup_diff in HX.
    destruct (dis_at _ _ l Hd) as [|HY]; [congruence|]. rewrite HY in HX. pose proof (lookup_weaken _ _ _ _ Hb Hs). congruence.
  - rewrite lookup_diff in Hi. destruct (W !! WMem l i); [by destruct Hi|]. apply Hcl; [by eexists|done].
Qed.

Lemma enclosedW_closed s x B W : enclosedW s x B W <-> closed s B W /\ outside (E := E) x B.
Proof.
  split.
  - intros H. split.
    + intros l i Hl. by apply H.
    + intros l i ->. destruct (B !! l) eqn:Hb; [|done]. destruct (H l i) as [HX _]; [by eexists|done].
  - intros [H1 H2] l i [b Hl]. split; [|apply H1; by eexists]. intros Heq. rewrite (H2 l i) in Hl; done.
Qed.
End basic.

Section ops.
Context {E : Env} (T : TP E) (K : Cls E) (HO : Honest T K) (HT : Tidy T K) (HA : AllocReq E).
Notation A := (eA E).
Notation bmap := (gmap loc (block E)).
Notation wmap := (gmap wl (wrapper E)).
Notation wv := (option (ty * c_val K) * A)%type.
Implicit Types s : store E.
Notation wrapped := (wrapped K).
Notation wrapper_at := (wrapper_at K).
Notation object := (object K).
Notation filled := (filled K).
Notation fresh := (fresh K).
Notation create := (create T).

(** ** Creation *)
Lemma tidy_create k a t x s :
  mem_ok s -> (k = Ind -> t = tT E) ->
  (forall l b s1, blocks s !! l = None -> storage s1 l b t -> mem_ok s1 -> blocks s1 = <[l := b]> (blocks s) -> wraps s1 = wraps s ->
     tidy (tp_cons T a t l x) s1 /\
     forall e s2, run (tp_cons T a t l x) s1 = OThrow e s2 -> forall i, wraps s2 !! WMem l i = None) ->
  tidy (create k a t x) s.
Proof.
  intros HM HI Hc.
  assert (Hst : forall l b s1, blocks s !! l = None -> blocks s1 = <[l := b]> (blocks s) -> wraps s1 = wraps s ->
    b_obj b = ORaw -> storage_for t b = true -> storage s1 l b t /\ mem_ok s1).
  { intros l b s1 Hl H1b H1w H1 H2. split.
    - split; [by rewrite H1b, lookup_insert|done|done|].
      intros j. rewrite H1w. apply eq_None_not_Some. intros HH. apply HM in HH as [? ?]. congruence.
    - intros l' i' Hi'. rewrite H1w in Hi'. rewrite H1b. at_norm. case_decide; [by eexists|]. by apply (HM l' i'). }
  destruct k; cbn [ContractProps.create].
  - rewrite (HI eq_refl) in *. unfold Indirect20.construct_from. apply tidy_bind; [by apply plain_tidy; simpl; split; [done|intros [?|?]]|].
    intros l s1 Hr. destruct (alloc_run _ _ _ _ _ Hr) as (Hl & H1b & H1w).
    destruct (Hst l _ s1 Hl H1b H1w) as [S1 S2]; [done|cbn; by rewrite bool_decide_eq_true_2|].
    destruct (Hc l _ s1 Hl S1 S2 H1b H1w) as [C1 C2].
    apply tidy_catch; [by apply tidy_bind|]. intros e s2 Hr2. cbn [act bind tidy tidy1].
    rewrite run_bind in Hr2. destruct (run (tp_cons _ _ _ _ _) s1) as [u s3|e3 s3| |] eqn:R3; [done| |done|done].
    split; [|by destruct (exec _ _)]. cbn in Hr2. simplify_eq. by apply (C2 e).
  - apply tidy_bind; [by apply plain_tidy; simpl; split; [done|intros [?|?]]|].
    intros l s1 Hr. destruct (alloc_run _ _ _ _ _ Hr) as (Hl & H1b & H1w).
    assert (Hinit : exists s2, run (act (PCbInit t l)) s1 = ORet tt s2 /\ blocks s2 = <[l := mkB a (BCb t) (HCb t None) ORaw]> (blocks s) /\ wraps s2 = wraps s).
    { cbn. rewrite H1b, lookup_insert. cbn. rewrite bool_decide_eq_true_2 by done. eexists. split; [done|]. cbn.
      rewrite ?H1b, insert_insert. done. }
    destruct Hinit as (s2 & R2 & H2b & H2w).
    destruct (Hst l _ s2 Hl H2b H2w) as [S1 S2]; [done|cbn; by rewrite bool_decide_eq_true_2|].
    destruct (Hc l _ s2 Hl S1 S2 H2b H2w) as [C1 C2].
    unfold Polymorphic20.cb_ctor.
    apply tidy_catch.
    + apply tidy_bind; [|by simpl]. apply tidy_bind; [by apply plain_tidy|]. intros [] s2' R2'.
      rewrite R2 in R2'. simplify_eq. apply tidy_bind; [done|]. intros _ s3 _. by apply plain_tidy.
    + intros e s4 Hr2. cbn [act bind tidy tidy1]. split; [|by destruct (exec _ _)].
      rewrite !run_bind, R2 in Hr2. rewrite !run_bind in Hr2.
      destruct (run (tp_cons _ _ _ _ _) s2) as [u s3|e3 s3| |] eqn:R3; [|by simplify_eq; apply (C2 e)|done|done].
      exfalso. cbn in Hr2. destruct (blocks s3 !! l) as [b3|]; [|done]. by destruct (b_hdr b3).
Qed.

Lemma tidy_create_make k a t c s :
  (exists x, c_make K t a c x) -> mem_ok s -> (k = Ind -> t = tT E) -> tidy (create k a t (AArgs c)) s.
Proof.
  intros Hc HM HI. apply tidy_create; [done..|]. intros l b s1 Hl Hst HM1 _ _. split; [by eapply (td_make T K HT)|].
  intros e s2 R i. assert (G := ho_make T K HO a t l b c s1 Hc HM1 Hst). rewrite R in G. apply changed_none in G as [_ G _].
  rewrite G. apply Hst.
Qed.

Lemma tidy_create_copy k a t c o bo x B W s :
  c <> RVal -> mem_ok s -> (k = Ind -> t = tT E) -> object s o bo t x B W -> tidy (create k a t (ARef c (RBlk o))) s.
Proof.
  intros Hc HM HI Hob. apply tidy_create; [done..|]. intros l b s1 Hl Hst HM1 Hb1 Hw1.
  destruct (object_grow K s s1 l b _ _ _ _ _ _ Hob Hl Hb1 Hw1) as (Hob1 & HBl & _).
  split; [by eapply (td_copy T K HT)|].
  intros e s2 R i. assert (G := ho_copy T K HO a t l b c o bo x B W s1 Hc HM1 Hst Hob1 HBl). rewrite R in G. apply changed_none in G as [_ G _].
  rewrite G. apply Hst.
Qed.

Lemma tidy_create_move k a t o bo x B W s :
  mem_ok s -> (k = Ind -> t = tT E) -> object s o bo t x B W -> enclosed s o B W -> tidy (create k a t (ARef RVal (RBlk o))) s.
Proof.
  intros HM HI Hob Hen. apply tidy_create; [done..|]. intros l b s1 Hl Hst HM1 Hb1 Hw1.
  destruct (object_grow K s s1 l b _ _ _ _ _ _ Hob Hl Hb1 Hw1) as (Hob1 & HBl & Hol).
  assert (Hen1 : enclosed s1 o B W).
  { intros l' i Hl' Hi. rewrite Hw1 in Hi. by apply Hen. }
  split; [by eapply (td_move T K HT)|].
  intros e s2 R i. assert (G := ho_move T K HO a t l b o bo x B W s1 HM1 Hst Hob1 HBl Hen1). rewrite R in G.
  destruct G as (y & bo' & B2 & W2 & _ & (v & -> & Hrep) & [C1 C2 C3 C4 C5]).
  assert (HB2l : B2 !! l = None).
  { rewrite Hb1 in C4. apply (fun Q => dis_at _ _ l Q) in C4. at_norm. rewrite HBl in C4.
    rewrite decide_False in C4 by done. rewrite decide_False, decide_True in C4 by done. by destruct C4. }
  rewrite C2, lookup_un, lookup_diff, (st_none _ _ _ _ Hst).
  destruct (W2 !! WMem l i) eqn:HW2; [|by destruct (W !! WMem l i)].
  exfalso. destruct (proj2 (ho_dom T K HO _ _ _ _ _ _ Hrep) (WMem l i)) as (l' & i' & Heq & Hl'); [by eexists|].
  simplify_eq. destruct Hl' as [|[q Hq]]; congruence.
Qed.

(** ** Destruction *)
Lemma tidy_reset s h x k B W : wrapper_at s h x k B W -> enclosedW s x B W -> tidy (reset_of (header_cls h) T x) s.
Proof.
  intros Hw Hen. destruct (wr_ptr _ _ _ _ _ _ _ Hw) as (p & Hp & Hx & HWx & Hk).
  destruct k as [[[t v]|] a]; cbn [fst snd] in *.
  2:{ subst p. destruct (header_cls h); cbn; by rewrite Hx. }
  destruct Hk as [l ->].
  destruct (wr_own T K HO _ _ _ _ _ _ _ _ Hw) as (l' & b & B1 & W1 & -> & -> & HB1 & HW1 & Hob & Hres & Hty & Hhdr & HI).
  rewrite lookup_insert in HWx. simplify_eq.
  assert (Hen1 := enclosed_in _ _ _ _ _ _ _ Hen).
  assert (Hde := fun a => td_destroy T K HT a t l b v B1 W1 s Hob Hen1).
  destruct (ho_destroy T K HO a t l b v B1 W1 s Hob) as (s1 & R1 & C1).
  assert (Hfr : forall i, wraps s1 !! WMem l i = None).
  { intros i. rewrite (ch_w _ _ _ _ _ _ C1), lookup_un, lookup_empty, lookup_diff. destruct (W1 !! WMem l i) eqn:HWi; [done|].
    apply eq_None_not_Some. intros Hi. destruct (Hen1 l i) as [q Hq]; [by left|done|congruence]. }
  destruct (header_cls h); cbn [kbty khdr] in *; cbn [reset_of].
  - rewrite (HI eq_refl) in *. unfold Indirect20.reset, Indirect20.destroy_with. apply tidy_noexcept.
    apply tdy_readP. intros p0 a0 Hp0 _. rewrite Hx in Hp0. simplify_eq. apply tdy_readA. intros p1 a1 Hp1. rewrite Hx in Hp1. simplify_eq.
    apply tidy_bind; [|intros ? ? ?; by apply plain_tidy]. apply tidy_bind; [done|]. intros [] s1' R1'. rewrite R1 in R1'. simplify_eq.
    cbn [act tidy tidy1]. split; [done|]. by destruct (exec _ _).
  - unfold Polymorphic20.reset, Polymorphic20.cb_destroy. apply tidy_noexcept.
    apply tdy_readP. intros p0 a0 Hp0 _. rewrite Hx in Hp0. simplify_eq. apply tdy_readA. intros p1 a1 Hp1. rewrite Hx in Hp1. simplify_eq.
    apply tidy_bind; [|intros ? ? ?; by apply plain_tidy]. apply tdy_cbty. intros b' t' p Hb' Hh'.
    rewrite (ob_l _ _ _ _ _ _ _ _ Hob) in Hb'. simplify_eq. rewrite Hhdr in Hh'. simplify_eq.
    apply tidy_bind; [done|]. intros [] s1' R1'. rewrite R1 in R1'. simplify_eq.
    cbn [act tidy tidy1]. split; [done|]. by destruct (exec _ _).
Qed.

Lemma tidy_dtor s h x k B W : wrapper_at s h x k B W -> enclosedW s x B W -> tidy (i_dtor (hdr_impl h T) x) s.
Proof.
  intros Hw Hen.
  assert (Hd : tidy (noexcept_if true (reset_of (header_cls h) T x) ;; act (PDelW x))%prog s).
  { apply tidy_bind; [apply tidy_noexcept; by eapply tidy_reset|]. intros ? ? ?. by apply plain_tidy. }
  by destruct h.
Qed.

(** ** Constructors *)
Lemma tidy_make h x a t c s :
  (exists v, c_make K (made (E := E) h t) a c v) -> mem_ok s -> home s x -> tidy (i_inplace_a (hdr_impl h T) x a t (AArgs c)) s.
Proof.
  intros Hc HM Hh.
  assert (HI : header_cls h = Ind -> made (E := E) h t = tT E) by (unfold made; by intros ->).
  assert (HP := tidy_create_make (header_cls h) a (made (E := E) h t) c
     (set_wraps (<[x := mkW PIndet a]> (wraps s)) s) Hc (newborn_mem_ok _ _ _ _ HM Hh) HI).
  assert (Hx0 : wraps (set_wraps (<[x := mkW PIndet a]> (wraps s)) s) !! x = Some (mkW PIndet a)) by (cbn; by rewrite lookup_insert).
  destruct h; (apply tidy_ctor; [done|]); intros _; set (s0 := set_wraps _ s) in *; clearbody s0.
  1,2: apply tdy_readA; intros p a' Ha'; rewrite Hx0 in Ha'; simplify_eq; apply tidy_bind; [done|]; intros ? ? ?; by apply plain_tidy.
  all: apply tidy_bind; [|intros ? ? ?; by apply plain_tidy]; apply tdy_readA; intros p a' Ha'; rewrite Hx0 in Ha'; simplify_eq; done.
Qed.

Lemma tidy_copya h x a y k B W s :
  mem_ok s -> home s x -> wrapper_at s h y k B W -> tidy (i_copy_a (hdr_impl h T) x a y) s.
Proof.
  intros HM Hh Hy. destruct (wr_ptr _ _ _ _ _ _ _ Hy) as (p & Hp & Hys & _ & Hk).
  set (s0 := set_wraps (<[x := mkW PIndet a]> (wraps s)) s).
  assert (Hx0 : wraps s0 !! x = Some (mkW PIndet a)) by (cbn; by rewrite lookup_insert).
  assert (HC : wraps s !! x = None -> forall c o ay, c <> RVal -> wraps s0 !! y = Some (mkW (PLoc o) ay) ->
    exists t, (header_cls h = Ind -> t = tT E) /\ tidy (create (header_cls h) a t (ARef c (RBlk o))) s0 /\
      exists bo, blocks s0 !! o = Some bo /\ b_hdr bo = khdr (header_cls h) t o).
  { intros Hx c o ay' Hc Ho. assert (Hne : y <> x) by congruence. cbn in Ho. rewrite lookup_insert_ne in Ho by done. rewrite Hys in Ho. simplify_eq.
    destruct k as [[[t v]|] ay]; cbn [fst snd] in *; [|done].
    assert (Hg := wr_grow _ _ _ _ _ _ _ x PIndet a Hy Hx). fold s0 in Hg.
    destruct (wr_own T K HO _ _ _ _ _ _ _ _ Hg) as (o' & bo & B1 & W1 & -> & -> & HB1 & HW1 & Hob & Hres & Hty & Hhdr & HI).
    assert (o' = o) as ->.
    { pose proof (lookup_weaken _ _ y (mkW (PLoc o') ay) (lookup_insert _ _ _) (wa_w _ _ _ _ _ _ _ Hy)). congruence. }
    exists t. split; [done|]. split; [|exists bo; split; [apply Hob|done]].
    eapply tidy_create_copy; [done| |done|done]. by apply newborn_mem_ok. }
  destruct h; (apply tidy_ctor; [done|]); intros Hx; specialize (HC Hx); clear Hys Hy Hx; fold s0; cbn [header_cls] in HC; clearbody s0.
  1,2: change (@Indirect14.valueless_after_move E) with (@Indirect20.valueless_after_move E);
    apply tdy_valueless; intros q aq Hq; destruct q as [| |o]; [by apply plain_tidy|by apply plain_tidy|];
    apply tdy_readA; intros p' a' Ha'; rewrite Hx0 in Ha'; simplify_eq;
    unfold Indirect20.op_star, Indirect14.op_star; apply tdy_deref; intros o' ao Ho; rewrite Hq in Ho; simplify_eq;
    (apply tidy_bind; [|intros ? ? ?; by apply plain_tidy]);
    destruct (HC ConstL o' ao) as (t & Ht & HC' & _); [done|done|]; rewrite (Ht eq_refl) in HC'; exact HC'.
  all: change (@Polymorphic14.valueless_after_move E) with (@Indirect20.valueless_after_move E);
    change (@Polymorphic20.valueless_after_move E) with (@Indirect20.valueless_after_move E);
    apply tdy_valueless; intros q aq Hq; destruct q as [| |o]; [by apply plain_tidy|by apply plain_tidy|]; cbn [negb];
    apply tdy_deref; intros o' ao Ho; rewrite Hq in Ho; simplify_eq;
    apply tdy_readA; intros p' a' Ha'; rewrite Hx0 in Ha'; simplify_eq;
    (apply tidy_bind; [|intros ? ? ?; by apply plain_tidy]);
    destruct (HC NonConstL o' ao) as (t & _ & HC' & bo & Hbo & Hhd); [done|done|];
    unfold Polymorphic20.cb_clone, Polymorphic14.cb_clone; apply tdy_cbty; intros b' t' pp Hb' Hh';
    rewrite Hbo in Hb'; simplify_eq; rewrite Hhd in Hh'; cbn in Hh'; simplify_eq; exact HC'.
Qed.

Lemma tidy_copy h x y k B W s :
  mem_ok s -> home s x -> wrapper_at s h y k B W -> tidy (i_copy (hdr_impl h T) x y) s.
Proof.
  intros HM Hh Hy.
  assert (H : tidy (bind (act (PReadA y)) (fun a => i_copy_a (hdr_impl h T) x (a_soccc E a) y)) s).
  { apply tdy_readA. intros p a Ha. by eapply tidy_copya. }
  by destruct h.
Qed.

(** Moving; the new object is created with [create_rv]. *)
Lemma tidy_movea_gen h x a y s :
  home s x ->
  (forall ay o, wraps s !! x = None -> wraps s !! y = Some (mkW (PLoc o) ay) -> a_eqb E a ay = false ->
     tidy (create_rv (header_cls h) T a o) (set_wraps (<[x := mkW (move_p0 h) a]> (wraps s)) s)) ->
  tidy (i_move_a (hdr_impl h T) x a y) s.
Proof.
  intros Hh HC.
  assert (Hx0 : wraps (set_wraps (<[x := mkW (move_p0 h) a]> (wraps s)) s) !! x = Some (mkW (move_p0 h) a)) by (cbn; by rewrite lookup_insert).
  assert (Hy0 : wraps s !! x = None -> forall o ay, wraps (set_wraps (<[x := mkW (move_p0 h) a]> (wraps s)) s) !! y = Some (mkW (PLoc o) ay) -> wraps s !! y = Some (mkW (PLoc o) ay)).
  { intros _ o ay. cbn. rewrite lookup_ins. case_decide; [|done]. unfold move_p0. destruct (header_cls h); congruence. }
  destruct h; cbn [hdr_impl i_move_a indirect20 indirect14 polymorphic20 polymorphic14];
    change (@Indirect14.ctor_move_a E) with (@Indirect20.ctor_move_a E);
    unfold Indirect20.ctor_move_a, Polymorphic20.ctor_move_a, Polymorphic14.ctor_move_a;
    apply tidy_noexcept; (apply tidy_ctor; [done|]); intros Hx; specialize (HC); specialize (Hy0 Hx); cbn [move_p0 header_cls] in *;
    set (s0 := set_wraps _ s) in *; clearbody s0.
  1,2: destruct (always_equal E); [by apply plain_tidy|].
  3: destruct (always_equal E); [by apply plain_tidy|].
  4: destruct (pocca E); [by apply plain_tidy|].
  all: apply tdy_readA; intros p1 a1 H1; rewrite Hx0 in H1; simplify_eq; apply tdy_readA; intros p2 a2 H2;
    destruct (a_eqb E a1 a2) eqn:Heq; [by apply plain_tidy|];
    change (@Polymorphic20.valueless_after_move E) with (@Indirect20.valueless_after_move E);
    change (@Polymorphic14.valueless_after_move E) with (@Indirect20.valueless_after_move E);
    apply tdy_valueless; intros q aq Hq; destruct q as [| |o]; [by apply plain_tidy|by apply plain_tidy|]; cbn [negb];
    rewrite H2 in Hq; simplify_eq; specialize (HC aq o Hx (Hy0 _ _ H2) Heq).
  1,2: apply tdy_readA; intros p' a' Ha'; rewrite Hx0 in Ha'; simplify_eq;
    unfold Indirect20.op_star; apply tdy_deref; intros o' ao Ho; rewrite H2 in Ho; simplify_eq;
    (apply tidy_bind; [exact HC|intros ? ? ?; by apply plain_tidy]).
  all: apply tdy_deref; intros o' ao Ho; rewrite H2 in Ho; simplify_eq;
    apply tdy_readA; intros p' a' Ha'; rewrite Hx0 in Ha'; simplify_eq;
    (apply tidy_bind; [exact HC|intros ? ? ?; by apply plain_tidy]).
Qed.

Lemma tidy_create_rv k a o bo t v B W s :
  mem_ok s -> (k = Ind -> t = tT E) -> object s o bo t v B W -> enclosed s o B W -> b_hdr bo = khdr k t o ->
  tidy (create_rv k T a o) s.
Proof.
  intros HM HI Hob Hen Hhd. assert (HP := tidy_create_move k a t o bo v B W s HM HI Hob Hen).
  destruct k; cbn [create_rv]; [done|]. unfold Polymorphic20.cb_move. apply tdy_cbty. intros b' t' p Hb' Hh'.
  rewrite (ob_l _ _ _ _ _ _ _ _ Hob) in Hb'. simplify_eq. rewrite Hhd in Hh'. cbn [khdr] in Hh'. simplify_eq. exact HP.
Qed.

Lemma tidy_movea h x a y ky By Wy s :
  mem_ok s -> home s x -> outside (E := E) x By -> wrapper_at s h y ky By Wy -> enclosedW s y By Wy ->
  tidy (i_move_a (hdr_impl h T) x a y) s.
Proof.
  intros HM Hh Hout Hy Hen. apply tidy_movea_gen; [done|]. intros ay o Hx Hys _.
  destruct (wr_ptr _ _ _ _ _ _ _ Hy) as (p & Hp & Hys' & HyW & Hyp). rewrite Hys in Hys'. simplify_eq.
  destruct ky as [[[t v]|] ay]; [|done]. cbn [fst snd] in *.
  destruct (wr_own T K HO _ _ _ _ _ _ _ _ Hy) as (o' & bo & B1 & W1 & -> & -> & HB1 & HW1 & Hob & Hres & Hty & Hhdr & HI).
  assert (o' = o) as -> by (rewrite lookup_insert in HyW; congruence).
  eapply (tidy_create_rv _ _ _ bo t v B1 W1); [by apply newborn_mem_ok|done| | |done].
  - destruct Hob as [O1 O2 O3 O4]. split; try done. cbn. etrans; [done|by apply insert_subseteq].
  - intros l' i Hl' Hi. cbn in Hi. rewrite lookup_ins in Hi. case_decide as Hd.
    + exfalso. specialize (Hout l' i Hd). rewrite lookup_ins in Hout. case_decide; [done|]. destruct Hl' as [->|[? Hl']]; congruence.
    + by apply (enclosed_in _ _ _ _ _ _ _ Hen).
Qed.

Lemma tidy_move (Hrefl : forall a, a_eqb E a a = true) h x y s : home s x -> tidy (i_move (hdr_impl h T) x y) s.
Proof.
  intros Hh.
  assert (H : exists b, i_move (hdr_impl h T) x y = noexcept_if b (bind (act (PReadA y)) (fun a => i_move_a (hdr_impl h T) x a y))).
  { destruct h; by eexists. }
  destruct H as [b ->]. apply tidy_noexcept, tdy_readA. intros p a Ha.
  apply tidy_movea_gen; [done|]. intros ay o _ Ho Heq. rewrite Ha in Ho. simplify_eq. by rewrite Hrefl in Heq.
Qed.

(** ** Assignment *)
Lemma enc_frame s s' B W B' W' h x k Bx Wx :
  changed s s' B W B' W' -> wrapper_at s h x k Bx Wx -> enclosedW s x Bx Wx -> Bx ##ₘ B -> Wx ##ₘ W ->
  (forall l i, is_Some (W' !! WMem l i) -> is_Some (B' !! l)) ->
  wrapper_at s' h x k Bx Wx /\ enclosedW s' x Bx Wx.
Proof.
  intros HC Hx Hen DB DW HW'. destruct (proj1 (enclosedW_closed _ _ _ _) Hen) as [Hcl Hout]. split.
  - destruct HC as [C1 C2 _ D1 D2]. destruct Hx as [H1 H2 H3]. split; [done|rewrite C1|rewrite C2].
    + clear - H2 DB D1. map_solve.
    + clear - H3 DW D2. map_solve.
  - apply enclosedW_closed. split; [|done]. eapply closed_frame; [done|apply Hx|done|done|]. intros l i Hl. left. by eapply HW'.
Qed.
Lemma fresh_dom k a t v l B W l' i : fresh k a t v l B W -> is_Some (W !! WMem l' i) -> is_Some (B !! l').
Proof.
  intros (b & bv & B1 & -> & _ & _ & Hrep) HW. destruct (proj2 (ho_dom T K HO _ _ _ _ _ _ Hrep) _ HW) as (l1 & i1 & Heq & Hl1). simplify_eq.
  rewrite lookup_ins. case_decide; [by eexists|]. by destruct Hl1 as [->|].
Qed.
Lemma adds_changed s s' B W : adds s s' B W -> changed s s' ∅ ∅ B W.
Proof. intros [A1 A2 A3 A4 A5]. split; [rewrite A1|rewrite A2|done| |]; rewrite map_difference_empty; done. Qed.

Lemma plain_post (f : bool) x y : plain (E := E) (if f then bind (act (PReadA y)) (fun a => act (PWriteA x a)) else Ret tt).
Proof. by destruct f. Qed.
Lemma plain_sel (f : bool) x y : plain (E := E) (if f then act (PReadA y) else act (PReadA x)).
Proof. by destruct f. Qed.
Lemma sel_same (f : bool) x y s a s' : run (E := E) (if f then act (PReadA y) else act (PReadA x)) s = ORet a s' -> s' = s.
Proof. destruct f; cbn; (destruct (wraps s !! _) as [w|]; [|done]); cbn; congruence. Qed.

Lemma tidy_casg h x y kx ky Bx Wx By Wy s :
  mem_ok s -> enclosedW s x Bx Wx ->
  wrapper_at s h x kx Bx Wx -> wrapper_at s h y ky By Wy -> Bx ##ₘ By -> Wx ##ₘ Wy ->
  tidy (i_copy_assign (hdr_impl h T) x y) s.
Proof.
  intros HM Hen Hx Hy DB DW. rewrite cassign_eq.
  destruct (wr_ptr _ _ _ _ _ _ _ Hx) as (px & Hpx' & Hxs & HxW & Hxp).
  destruct (wr_ptr _ _ _ _ _ _ _ Hy) as (py & Hpy' & Hys & HyW & Hyp).
  assert (Hrs := tidy_reset s h x kx Bx Wx Hx Hen).
  assert (Hval : forall o, py = PLoc o -> exists t v bo B1 W1, object s o bo t v B1 W1 /\ By = <[o := bo]> B1 /\ Wy = <[y := mkW (PLoc o) ky.2]> W1 /\ W1 !! y = None /\
    b_hdr bo = khdr (header_cls h) t o /\ (header_cls h = Ind -> t = tT E)).
  { intros o ->. destruct ky as [[[t v]|] ay]; [|done]. cbn [fst snd] in *.
    destruct (wr_own T K HO _ _ _ _ _ _ _ _ Hy) as (o' & bo & B1 & W1 & -> & -> & HB1 & HW1 & Hob & Hres & Hty & Hhdr & HI).
    assert (o' = o) as -> by (rewrite lookup_insert in HyW; congruence). by exists t, v, bo, B1, W1. }
  assert (Hcr : forall o t v bo B1 W1 a c, c <> RVal -> object s o bo t v B1 W1 -> (header_cls h = Ind -> t = tT E) ->
    tidy (bind (create (header_cls h) a t (ARef c (RBlk o))) (fun tmp => bind (reset_of (header_cls h) T x) (fun _ => act (PWriteP x (Some tmp))))) s).
  { intros o t v bo B1 W1 a c Hc Hob HI. apply tidy_bind; [by eapply tidy_create_copy|]. intros l s1 R.
    assert (HC := create_copy T K HO (header_cls h) a t c o bo v B1 W1 s Hc HM HI Hob). rewrite R in HC.
    destruct HC as (v' & B' & W' & _ & Hf & Had).
    destruct (enc_frame _ _ _ _ _ _ h x kx Bx Wx (adds_changed _ _ _ _ Had) Hx Hen) as [H1 H2];
      [apply map_disjoint_empty_r|apply map_disjoint_empty_r|by intros ? ?; eapply fresh_dom|].
    apply tidy_bind; [by eapply tidy_reset|]. intros ? ? ?. by apply plain_tidy. }
  destruct (header_cls h) eqn:Hcls; cbn [cassign]; unfold Indirect20.copy_assign, Polymorphic20.copy_assign;
    (case_decide; [done|]);
    change (@Polymorphic20.valueless_after_move E) with (@Indirect20.valueless_after_move E);
    apply tdy_valueless; intros q aq Hq; (apply tidy_bind; [|intros ? ? ?; apply plain_tidy, plain_post]);
    rewrite Hys in Hq; simplify_eq; (destruct q as [| |o]; [exact Hrs..|]); destruct (Hval o eq_refl) as (t & v & bo & B1 & W1 & Hob & HBe & HWe & HW1 & Hhd & HI).
  - rewrite (HI eq_refl) in *. apply tidy_bind; [apply plain_tidy; by destruct (t_assignable E); repeat (simpl; split; [done|intros []])|].
    intros c s' Hr. assert (s' = s) as ->.
    { revert Hr. destruct (t_assignable E); cbn; [|congruence]. rewrite Hxs. destruct px; cbn; [done|congruence|].
      rewrite Hxs, Hys. cbn. congruence. }
    destruct c.
    + apply tdy_deref. intros l ax Hl. unfold Indirect20.op_star. apply tdy_deref. intros o' ao Ho. rewrite Hys in Ho. simplify_eq.
      destruct kx as [[[tx d]|] axx]; cbn [fst snd] in *; [|congruence].
      destruct (wr_own T K HO _ _ _ _ _ _ _ _ Hx) as (l' & b & B2 & W2 & HBxe & HWxe & HB2 & HW2 & Hobx & Hresx & Htyx & Hhdrx & HIx).
      assert (l' = l) as ->.
      { rewrite HWxe in HxW. rewrite lookup_insert in HxW. congruence. }
      rewrite Hcls in *. rewrite (HIx eq_refl) in *. eapply (td_asg T K HT); [done|exact Hobx|exact Hob|by rewrite <- HBxe| |].
      * clear - DW HWxe HW2 HW1. subst Wx. map_solve.
      * subst. by eapply enclosed_in.
    + apply tidy_bind; [apply plain_tidy, plain_sel|]. intros a s' Hs. apply sel_same in Hs as ->.
      apply tdy_deref. intros o' ao Ho. rewrite Hys in Ho. simplify_eq.
      exact (Hcr o' (tT E) v bo B1 W1 a NonConstL ltac:(done) Hob ltac:(done)).
  - apply tdy_deref. intros o' ao Ho. rewrite Hys in Ho. simplify_eq.
    apply tidy_bind; [apply plain_tidy, plain_sel|]. intros a s' Hs. apply sel_same in Hs as ->.
    unfold Polymorphic20.cb_clone. apply tdy_cbty. intros b' t' pp Hb' Hh'. rewrite (ob_l _ _ _ _ _ _ _ _ Hob) in Hb'. simplify_eq.
    rewrite Hhd in Hh'. cbn [khdr] in Hh'. simplify_eq. exact (Hcr o' t' v b' B1 W1 a NonConstL ltac:(done) Hob ltac:(done)).
Qed.

Lemma tidy_masg h x y kx ky Bx Wx By Wy s :
  mem_ok s -> wrapper_at s h x kx Bx Wx -> wrapper_at s h y ky By Wy -> Bx ##ₘ By -> Wx ##ₘ Wy -> enclosedW s y By Wy ->
  enclosedW s x Bx Wx -> outside (E := E) y Bx -> tidy (i_move_assign (hdr_impl h T) x y) s.
Proof.
  intros HM Hx Hy DB DW Heny Hen Hout. rewrite massign_eq.
  destruct (wr_ptr _ _ _ _ _ _ _ Hx) as (px & Hpx & Hxs & HxW & Hxp).
  destruct (wr_ptr _ _ _ _ _ _ _ Hy) as (py & Hpy & Hys & HyW & Hyp).
  assert (HyWx : Wx !! y = None) by (destruct (dis_at _ _ y DW); congruence).
  assert (Hxy : x <> y) by congruence.
  assert (Hrs := tidy_reset s h x kx Bx Wx Hx Hen).
  assert (Hval : forall o, py = PLoc o -> exists t v bo B1 W1, object s o bo t v B1 W1 /\ By = <[o := bo]> B1 /\ Wy = <[y := mkW (PLoc o) ky.2]> W1 /\ W1 !! y = None /\
    b_hdr bo = khdr (header_cls h) t o /\ (header_cls h = Ind -> t = tT E)).
  { intros o ->. destruct ky as [[[t v]|] ay]; [|done]. cbn [fst snd] in *.
    destruct (wr_own T K HO _ _ _ _ _ _ _ _ Hy) as (o' & bo & B1 & W1 & -> & -> & HB1 & HW1 & Hob & Hres & Hty & Hhdr & HI).
    assert (o' = o) as -> by (rewrite lookup_insert in HyW; congruence). by exists t, v, bo, B1, W1. }
  assert (Hcr : forall o a, py = PLoc o ->
    tidy (bind (create_rv (header_cls h) T a o) (fun tmp => bind (reset_of (header_cls h) T x) (fun _ => act (PWriteP x (Some tmp))))) s).
  { intros o a Hpo. destruct (Hval o Hpo) as (t & v & bo & B1 & W1 & Hob & HBe & HWe & HW1 & Hhd & HI). subst By Wy.
    assert (Hen1 := enclosed_in _ _ _ _ _ _ _ Heny).
    apply tidy_bind; [by eapply tidy_create_rv|]. intros l s1 R.
    assert (Hcr : run (create_rv (header_cls h) T a o) s = run (create (header_cls h) a t (ARef RVal (RBlk o))) s).
    { destruct (header_cls h); [done|]. cbn [create_rv]. unfold Polymorphic20.cb_move.
      rewrite (st_cbty o bo t (Some o)) by first [exact (ob_l _ _ _ _ _ _ _ _ Hob)|exact Hhd]. done. }
    rewrite Hcr in R. clear Hcr.
    assert (HC := create_move T K HO (header_cls h) a t o bo v B1 W1 s HM HI Hob Hen1). rewrite R in HC.
    destruct HC as (v' & B' & W' & y0 & bo' & B2 & W2 & Hmv & Hf & (bv & -> & Hrep) & DB' & DW' & Hch).
    destruct (enc_frame _ _ _ _ _ _ h x kx Bx Wx Hch Hx Hen) as [H1 H2]; [done| | |].
    { clear - DW HW1. map_solve. }
    { intros l' i Hi. rewrite lookup_un in Hi. rewrite lookup_un. destruct (W' !! WMem l' i) eqn:Hwi.
      - destruct (fresh_dom _ _ _ _ _ _ _ l' i Hf) as [q ->]; [by eexists|by eexists].
      - destruct (B' !! l'); [by eexists|]. destruct (proj2 (ho_dom T K HO _ _ _ _ _ _ Hrep) _ Hi) as (l1 & i1 & Heq & Hl1). simplify_eq.
        rewrite lookup_ins. case_decide; [by eexists|]. by destruct Hl1 as [->|]. }
    apply tidy_bind; [by eapply tidy_reset|]. intros ? ? ?. by apply plain_tidy. }
  assert (Hsw : a_eqb E kx.2 ky.2 = true -> tidy (bind (swap_p x y) (fun _ => reset_of (header_cls h) T y)) s).
  { intros Heq. apply tidy_bind; [apply plain_tidy, plain_swap_p|]. intros [] s1 R.
    rewrite (st_swap x y px kx.2 py ky.2 s Hxy Hxs Hys Hpx Hpy) in R. injection R as <-.
    assert (HWx := wa_w _ _ _ _ _ _ _ Hx).
    destruct (wrapped_to K h x y kx ky.2 Bx Wx (wa_rep _ _ _ _ _ _ _ Hx)) as (p' & Hp' & _ & Hw);
      [by rewrite lookup_delete_ne|by apply (ar_res _ HA)|].
    assert (p' = px) as -> by congruence.
    eapply (tidy_reset _ h y (kx.1, ky.2) Bx (<[y := mkW px ky.2]> (delete x Wx))).
    - split; [done|apply Hx|]. cbn. clear - HWx Hxy HyWx. map_solve.
    - destruct (proj1 (enclosedW_closed _ _ _ _) Hen) as [Hcl Hox]. apply enclosedW_closed. split; [|done].
      intros l i Hl Hi. cbn in Hi. rewrite lookup_ins. case_decide as Hd; [by eexists|].
      assert (x <> WMem l i) as Hx' by (intros ->; destruct Hl as [? Hl]; by rewrite (Hox l i) in Hl).
      rewrite lookup_insert_ne in Hi by done. rewrite lookup_insert_ne in Hi by done.
      rewrite lookup_delete_ne by done. by apply Hcl. }
  destruct (header_cls h) eqn:Hcls; cbn [massign]; unfold Indirect20.move_assign, Polymorphic20.move_assign;
    apply tidy_noexcept; (case_decide; [done|]);
    change (@Polymorphic20.valueless_after_move E) with (@Indirect20.valueless_after_move E);
    apply tdy_valueless; intros q aq Hq; (apply tidy_bind; [|intros ? ? ?; apply plain_tidy, plain_post]);
    rewrite Hys in Hq; simplify_eq; (destruct q as [| |o]; [exact Hrs..|]);
    apply tdy_readA; intros p1 a1 H1; rewrite Hxs in H1; simplify_eq; apply tdy_readA; intros p2 a2 H2; rewrite Hys in H2; simplify_eq;
    (destruct (a_eqb E kx.2 ky.2) eqn:Heq; [by apply Hsw|]).
  - apply tidy_bind; [apply plain_tidy, plain_sel|]. intros a s' Hs. apply sel_same in Hs as ->.
    apply tdy_deref. intros o' ao Ho. rewrite Hys in Ho. simplify_eq. by apply Hcr.
  - apply tdy_deref. intros o' ao Ho. rewrite Hys in Ho. simplify_eq.
    apply tidy_bind; [apply plain_tidy, plain_sel|]. intros a s' Hs. apply sel_same in Hs as ->. by apply Hcr.
Qed.

Lemma plain_swap h x y : plain (i_swap (hdr_impl h T) x y).
Proof.
  destruct h; cbn [hdr_impl i_swap indirect20 indirect14 polymorphic20 polymorphic14];
    unfold Indirect20.swap, Indirect14.swap, Polymorphic20.swap, Polymorphic14.swap; apply plain_noexcept;
    destruct (pocs E); try (by simpl); simpl; (split; [done|]); intros a1; (split; [done|]); intros a2; by destruct (a_eqb E a1 a2).
Qed.
End ops.
