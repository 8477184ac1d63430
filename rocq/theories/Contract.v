(** * Value types with arbitrary special member functions.

    The value types of [flatTP] are opaque and those of Tree.v have the special member
    functions the compiler generates.  Here the special member functions of the value type
    are arbitrary programs [T : TP E]: nothing is known about them but a contract, which is
    what the author of a class with value semantics promises.  Nothing in /repo is modelled
    in this file; it is the class with which the class templates are instantiated
    (DRAFT.md: T meets the Cpp17Destructible, Cpp17CopyConstructible, ... requirements). *)

From stdpp Require Import base gmap list.
From Verif Require Import Lang Common Client Spec Rep Headers Hist Tree.

(** What a class means to its users: its abstract values, how memory represents them, and
    what the special member functions do to values.
    - [c_rep t l v x B W]: the object of type [t] in block [l], whose bytes are [v], has the
      value [x], and owns the blocks [B] (besides [l]) and the subobjects [W];
    - [c_copy t a x x']: a copy of [x] constructed with the allocator [a] may be [x'];
    - [c_move t a x x' y]: moving [x] may construct [x'] and leave [y];
    - [c_movef t x y]: a move construction from [x] that throws may leave [y];
    - [c_asg t d x d']: copy-assigning [x] to [d] may give [d'];  [c_asgf]: if it throws;
    - [c_make t a c x]: construction from the arguments [c] may give [x]; the class may be
      constructed only from arguments for which there is such an [x]. *)
Record Cls (E : Env) := mkCls {
  c_val : Type;
  c_rep : ty -> loc -> eV E -> c_val -> gmap loc (block E) -> gmap wl (wrapper E) -> Prop;
  c_copy : ty -> eA E -> c_val -> c_val -> Prop;
  c_move : ty -> eA E -> c_val -> c_val -> c_val -> Prop;
  c_movef : ty -> c_val -> c_val -> Prop;
  c_asg : ty -> c_val -> c_val -> c_val -> Prop;
  c_asgf : ty -> c_val -> c_val -> c_val -> Prop;
  c_make : ty -> eA E -> eC E -> c_val -> Prop;
}.
Arguments mkCls {E} _ _ _ _ _ _ _ _.
Arguments c_val {E} _.
Arguments c_rep {E} _ _ _ _ _ _ _.
Arguments c_copy {E} _ _ _ _ _.
Arguments c_move {E} _ _ _ _ _ _.
Arguments c_movef {E} _ _ _ _.
Arguments c_asg {E} _ _ _ _ _.
Arguments c_asgf {E} _ _ _ _ _.
Arguments c_make {E} _ _ _ _ _.

Section contract.
Context {E : Env} (T : TP E) (K : Cls E).
Notation A := (eA E).
Notation V := (eV E).
Notation bmap := (gmap loc (block E)).
Notation wmap := (gmap wl (wrapper E)).
Implicit Types s : store E.

(** [s'] is [s] with the memory [B], [W] replaced by [B'], [W']. *)
Record changed s s' (B : bmap) (W : wmap) (B' : bmap) (W' : wmap) : Prop := {
  ch_b : blocks s' = B' ∪ (blocks s ∖ B);
  ch_w : wraps s' = W' ∪ (wraps s ∖ W);
  ch_x : exts s' = exts s;
  ch_db : B' ##ₘ blocks s ∖ B;
  ch_dw : W' ##ₘ wraps s ∖ W;
}.

(** The block [l] of [s] is [b], holding a [t] of value [x] that owns [B] and [W]. *)
Record object s (l : loc) (b : block E) (t : ty) (x : c_val K) (B : bmap) (W : wmap) : Prop := {
  ob_live : exists v, b_obj b = OLive t v /\ c_rep K t l v x B W;
  ob_l : blocks s !! l = Some b;
  ob_b : B ⊆ blocks s;
  ob_w : W ⊆ wraps s;
}.

(** The block [b] at [l] with its storage now holding a [t] of value [x], which owns [B], [W]. *)
Definition filled (l : loc) (b b' : block E) (t : ty) (x : c_val K) (B : bmap) (W : wmap) : Prop :=
  exists v, b' = set_obj (OLive t v) b /\ c_rep K t l v x B W.

(** The block [l] of [s] is [b], storage for a [t]. *)
Record storage s (l : loc) (b : block E) (t : ty) : Prop := {
  st_l : blocks s !! l = Some b;
  st_raw : b_obj b = ORaw;
  st_for : storage_for t b = true;
  st_none : forall i, wraps s !! WMem l i = None;
}.

(** No subobject of a block of [B] or of [l] is outside [W]. *)
Definition enclosed s (l : loc) (B : bmap) (W : wmap) : Prop :=
  forall l' i, l' = l \/ is_Some (B !! l') -> is_Some (wraps s !! WMem l' i) -> is_Some (W !! WMem l' i).

(** The contract.  Every operation touches only the objects it is given and what they own;
    a constructor or an assignment may throw, a destructor may not.  If a copy constructor
    throws, nothing has changed; if a move constructor throws, the source is a valid object;
    if an assignment throws, the target is a valid object. *)
Record Honest : Prop := {
  ho_dom : forall t l v x B W, c_rep K t l v x B W ->
    B !! l = None /\
    forall u, is_Some (W !! u) -> exists l' i, u = WMem l' i /\ (l' = l \/ is_Some (B !! l'));
  ho_make : forall a t l b c s,
    (exists x, c_make K t a c x) -> mem_ok s -> storage s l b t ->
    match run (tp_cons T a t l (AArgs c)) s with
    | ORet _ s' => exists x b' B' W', c_make K t a c x /\ filled l b b' t x B' W' /\
        changed s s' {[ l := b ]} ∅ (<[l := b']> B') W'
    | OThrow _ s' => changed s s' ∅ ∅ ∅ ∅
    | _ => False
    end;
  ho_copy : forall a t l b c o bo x B W s,
    c <> RVal -> mem_ok s -> storage s l b t -> object s o bo t x B W -> B !! l = None ->
    match run (tp_cons T a t l (ARef c (RBlk o))) s with
    | ORet _ s' => exists x' b' B' W', c_copy K t a x x' /\ filled l b b' t x' B' W' /\
        changed s s' {[ l := b ]} ∅ (<[l := b']> B') W'
    | OThrow _ s' => changed s s' ∅ ∅ ∅ ∅
    | _ => False
    end;
  ho_move : forall a t l b o bo x B W s,
    mem_ok s -> storage s l b t -> object s o bo t x B W -> B !! l = None -> enclosed s o B W ->
    match run (tp_cons T a t l (ARef RVal (RBlk o))) s with
    | ORet _ s' => exists x' b' B1 W1 y bo' B2 W2, c_move K t a x x' y /\
        filled l b b' t x' B1 W1 /\ filled o bo bo' t y B2 W2 /\
        <[l := b']> B1 ##ₘ <[o := bo']> B2 /\ W1 ##ₘ W2 /\
        changed s s' (<[l := b]> (<[o := bo]> B)) W (<[l := b']> B1 ∪ <[o := bo']> B2) (W1 ∪ W2)
    | OThrow _ s' => exists y bo' B2 W2, c_movef K t x y /\ filled o bo bo' t y B2 W2 /\
        changed s s' (<[o := bo]> B) W (<[o := bo']> B2) W2
    | _ => False
    end;
  ho_destroy : forall a t l b x B W s,
    object s l b t x B W ->
    exists s', run (tp_destroy T a t l) s = ORet tt s' /\
      changed s s' (<[l := b]> B) W {[ l := set_obj ORaw b ]} ∅;
  ho_asg : forall t l b d B W o bo x Bo Wo s,
    mem_ok s -> object s l b t d B W -> object s o bo t x Bo Wo ->
    <[l := b]> B ##ₘ <[o := bo]> Bo -> W ##ₘ Wo -> enclosed s l B W ->
    match run (tp_asgn T t l (ARef ConstL (RBlk o))) s with
    | ORet _ s' => exists d' b' B' W', c_asg K t d x d' /\ filled l b b' t d' B' W' /\
        changed s s' (<[l := b]> B) W (<[l := b']> B') W'
    | OThrow _ s' => exists d' b' B' W', c_asgf K t d x d' /\ filled l b b' t d' B' W' /\
        changed s s' (<[l := b]> B) W (<[l := b']> B') W'
    | _ => False
    end;
}.

(** ** What the class templates make of such a type *)

(** The state of a wrapper: valueless, or an object of some type with some value; and its
    allocator. *)
Notation wv := (option (ty * c_val K) * A)%type.

(** [wrapped h w k B W]: the wrapper object [w] of header [h] is in state [k]; it and what it
    owns are exactly [B] and [W]. *)
Definition wrapped (h : header) (w : wl) (k : wv) (B : bmap) (W : wmap) : Prop :=
  match k with
  | (None, a) => B = ∅ /\ W = {[ w := mkW PNull a ]}
  | (Some (t, x), a) => exists l b v B1 W1,
      B = <[l := b]> B1 /\ W = <[w := mkW (PLoc l) a]> W1 /\ W1 !! w = None /\
      block_ok (header_cls h) l t v a b /\ c_rep K t l v x B1 W1
  end.

(** The wrapper [w] of [s]. *)
Record wrapper_at s (h : header) (w : wl) (k : wv) (B : bmap) (W : wmap) : Prop := {
  wa_rep : wrapped h w k B W;
  wa_b : B ⊆ blocks s;
  wa_w : W ⊆ wraps s;
}.

(** Every subobject of a block the wrapper owns is one the wrapper owns. *)
Definition enclosedW s (w : wl) (B : bmap) (W : wmap) : Prop :=
  forall l i, is_Some (B !! l) -> WMem l i <> w /\ (is_Some (wraps s !! WMem l i) -> is_Some (W !! WMem l i)).

(** Copying and moving wrappers, in terms of the class's own copies and moves. *)
Definition copied (a : A) (k k' : wv) : Prop :=
  match k.1 with
  | None => k' = (None, a)
  | Some (t, x) => exists x', c_copy K t a x x' /\ k' = (Some (t, x'), a)
  end.
End contract.

(** ** What the operations of a wrapper promise, given the class's promises *)
Section promises.
Context {E : Env} (K : Cls E).
Notation A := (eA E).
Notation wv := (option (ty * c_val K) * A)%type.

(** The type of the object that construction of a wrapper of header [h] creates when asked
    for a [t]: [indirect] always owns a T. *)
Definition made (h : header) (t : ty) : ty :=
  match header_cls h with Ind => tT E | Poly => t end.

(** The allocator of the target of an assignment, afterwards. *)
Definition kept (f : bool) (ax ay : A) : A := if f then ay else ax.

(** Copy assignment assigns to the value the target has, or replaces it by a copy. *)
Definition reuses (h : header) (kx ky : wv) : bool :=
  match header_cls h, kx.1, ky.1 with
  | Ind, Some _, Some _ => t_assignable E && a_eqb E kx.2 ky.2
  | _, _, _ => false
  end.
Definition assigned (h : header) (kx ky k' : wv) : Prop :=
  let a := kept (pocca E) kx.2 ky.2 in
  match kx.1, ky.1 with
  | _, None => k' = (None, a)
  | Some (_, d), Some (t, x) =>
      if reuses h kx ky then exists d', c_asg K t d x d' /\ k' = (Some (t, d'), a)
      else exists x', c_copy K t a x x' /\ k' = (Some (t, x'), a)
  | None, Some (t, x) => exists x', c_copy K t a x x' /\ k' = (Some (t, x'), a)
  end.
(** If it throws, the target is as it was, unless its value was being assigned to. *)
Definition assign_failed (h : header) (kx ky k' : wv) : Prop :=
  if reuses h kx ky then
    match kx.1, ky.1 with
    | Some (_, d), Some (t, x) => exists d', c_asgf K t d x d' /\ k' = (Some (t, d'), kx.2)
    | _, _ => False
    end
  else k' = kx.

(** Moving the value out of a wrapper in state [k], with the allocator [a] for the new one:
    the object changes hands, or a new one is move-constructed. *)
Definition moved (steal : bool) (a : A) (k k' ky : wv) : Prop :=
  match k.1 with
  | None => k' = (None, a) /\ ky = (None, k.2)
  | Some (t, x) =>
      if steal then k' = (Some (t, x), a) /\ ky = (None, k.2)
      else exists x' y, c_move K t a x x' y /\ k' = (Some (t, x'), a) /\ ky = (Some (t, y), k.2)
  end.
(** A move that throws leaves the source valid: as it was, or what the class says. *)
Definition move_broken (k ky : wv) : Prop :=
  match k.1 with
  | None => False
  | Some (t, x) => ky = k \/ exists y, c_movef K t x y /\ ky = (Some (t, y), k.2)
  end.
End promises.

(** ** Where the value of a wrapper goes on a move *)
Section promises2.
Context {E : Env} (K : Cls E).
Notation A := (eA E).
Notation wv := (option (ty * c_val K) * A)%type.

(** The move constructors hand over the object if the allocators are (always) equal.
    [polymorphic_cxx14.h] asks for propagation on copy assignment instead of
    [is_always_equal] (line 336). *)
Definition steals (h : header) (a ay : A) : bool :=
  match h with HPoly14 => pocca E | _ => always_equal E end || a_eqb E a ay.

(** [x] is not a subobject of one of the blocks [B]. *)
Definition outside (x : wl) (B : gmap loc (block E)) : Prop := forall l i, x = WMem l i -> B !! l = None.

(** Swapping exchanges the values; the allocators are exchanged if they propagate. *)
Definition swapped (kx ky kx' ky' : wv) : Prop :=
  if pocs E then kx' = ky /\ ky' = kx else kx' = (ky.1, kx.2) /\ ky' = (kx.1, ky.2).
End promises2.

(** ** Classes with wrapper members

    The classes of Tree.v: data and members that are wrappers, with the special member
    functions the compiler generates ([nodeTP_step], Tree.v).  The members' value type is the
    class [K]; it need not be one of these classes. *)
Section node_class.
Context {E : Env} (Sh : Shape E) (K : Cls E).
Notation A := (eA E).
Notation V := (eV E).
Notation bmap := (gmap loc (block E)).
Notation wmap := (gmap wl (wrapper E)).
Notation wv := (option (ty * c_val K) * A)%type.

(** The wrappers [nm i], [nm (i+1)], ... of headers [hs i], [hs (i+1)], ... *)
Fixpoint members (hs : nat -> header) (nm : nat -> wl) (i : nat) (ks : list wv) (B : bmap) (W : wmap) : Prop :=
  match ks with
  | [] => B = ∅ /\ W = ∅
  | k :: ks' => exists B1 W1 B2 W2, B = B1 ∪ B2 /\ W = W1 ∪ W2 /\ B1 ##ₘ B2 /\ W1 ##ₘ W2 /\
      wrapped K (hs i) (nm i) k B1 W1 /\ members hs nm (S i) ks' B2 W2
  end.

(** Memberwise assignment, complete or up to the member that threw. *)
Fixpoint assigned_all (hs : nat -> header) (i : nat) (ds ks ds' : list wv) : Prop :=
  match ds, ks, ds' with
  | [], [], [] => True
  | d :: ds, k :: ks, d' :: ds' => assigned K (hs i) d k d' /\ assigned_all hs (S i) ds ks ds'
  | _, _, _ => False
  end.
Fixpoint assigned_upto (hs : nat -> header) (i : nat) (ds ks ds' : list wv) : Prop :=
  match ds, ks, ds' with
  | d :: ds, k :: ks, d' :: ds' =>
      assign_failed K (hs i) d k d' /\ ds' = ds \/ assigned K (hs i) d k d' /\ assigned_upto hs (S i) ds ks ds'
  | _, _, _ => False
  end.

Definition node_cls : Cls E :=
  mkCls (V * list wv)
    (fun t l v x B W => v = x.1 /\ length x.2 = n_kids Sh t v /\ B !! l = None /\
                        members (k_hdr Sh t) (WMem l) 0 x.2 B W)
    (fun t a x x' => x'.1 = (t_cons E ConstL t t a x.1).1 /\
                     Forall2 (fun k k' => copied K (a_soccc E k.2) k k') x.2 x'.2)
    (fun t a x x' y => x'.1 = (t_cons E RVal t t a x.1).1 /\ x'.2 = x.2 /\
                       y.1 = (t_cons E RVal t t a x.1).2 /\ y.2 = map (fun k => (None, k.2)) x.2)
    (fun t x y => y.1 = t_cons_fail E RVal t t x.1 /\ y.2 = x.2)
    (fun t d x d' => d'.1 = (t_asgn E ConstL t t d.1 x.1).1 /\
                     assigned_all (k_hdr Sh t) 0 d.2 x.2 d'.2)
    (fun t d x d' => d'.1 = (t_asgn_fail E ConstL t t d.1 x.1).1 /\ d'.2 = d.2 \/
                     d'.1 = (t_asgn E ConstL t t d.1 x.1).1 /\ assigned_upto (k_hdr Sh t) 0 d.2 x.2 d'.2)
    (fun t a c x => x = (t_make E t a c, []) /\ n_kids Sh t x.1 = 0).
End node_class.

(** ** Classes without members: the opaque value types of [flatTP] *)
Definition flat_cls (E : Env) : Cls E :=
  mkCls (eV E)
    (fun t l v x B W => v = x /\ B = ∅ /\ W = ∅)
    (fun t a x x' => exists c, c <> RVal /\ x' = (t_cons E c t t a x).1)
    (fun t a x x' y => (x', y) = t_cons E RVal t t a x)
    (fun t x y => y = t_cons_fail E RVal t t x)
    (fun t d x d' => d' = (t_asgn E ConstL t t d x).1)
    (fun t d x d' => d' = (t_asgn_fail E ConstL t t d x).1)
    (fun t a c x => x = t_make E t a c).
(** Copying from an lvalue does not modify it. *)
Definition copies_const (E : Env) : Prop :=
  forall t a v, (t_cons E NonConstL t t a v).2 = v /\ t_cons_fail E NonConstL t t v = v.
