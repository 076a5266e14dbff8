(** Method lookup: the search along the superclass chain, the global method cache,
    the inline cache of a call site, compiled call sites, and super.
    monoruby/src/globals/store/class.rs, globals/store.rs, globals/method.rs,
    executor.rs, codegen/runtime.rs, codegen/arch/x86_64/vmgen/method_call.rs.

    The heap of classes is that of ClassModel.v.  A method body is its FuncId, a
    name its IdentId.  A method table is a partial function.

    Not modelled: [is_basic_op], [original_name] and [is_alias] of an entry;
    method_missing; the activation of refinements ([search_refined] takes the list of
    the activated ones); Module#dup and Kernel#clone, which fill the table of a new
    class. *)
From Coq Require Import ZArith List Bool.
From Verif Require Import ClassModel.
Import ListNotations.
Open Scope Z_scope.

(** store.rs:21-46 [MethodTableEntry]. *)
Inductive vis := Public | Protected | Private | Undefined.
Record entry := mke { eowner : Z; efid : option Z; evis : vis; eshadow : bool }.
Definition with_vis (e : entry) (v : vis) : entry := mke (eowner e) (efid e) v (eshadow e).
Definition with_owner (e : entry) (o : Z) : entry := mke o (efid e) (evis e) (eshadow e).
Definition with_fid (e : entry) (f : Z) : entry := mke (eowner e) (Some f) (evis e) (eshadow e).
Definition same_vis (a b : vis) : bool :=
  match a, b with
  | Public, Public | Protected, Protected | Private, Private | Undefined, Undefined => true
  | _, _ => false
  end.

(** The [methods] of every ClassInfo, by class id. *)
Definition tables := Z -> Z -> option entry.
Definition put (T : tables) (c n : Z) (e : option entry) : tables :=
  fun c' n' => if (c' =? c) && (n' =? n) then e else T c' n'.

Definition or_else {A} (o : option A) (x : A) : A := match o with Some y => y | None => x end.
Definition first {A} (o : option A) (x : A) : option A := Some (or_else o x).

(** class.rs:1161-1174: the activated refinements of a class, in order. *)
Fixpoint refined (T : tables) (c n : Z) (rs : list (Z * Z)) : option entry :=
  match rs with
  | [] => None
  | (r, m) :: t =>
      if r =? c then
        match T m n with
        | Some e => match efid e with Some _ => Some e | None => refined T c n t end
        | None => refined T c n t
        end
      else refined T c n t
  end.

(** class.rs:1145-1222, the loop of [search_method_refined]; [v], [sh]: the variables
    [visi] and [shadow]. *)
Fixpoint walk (h : heap) (T : tables) (rs : list (Z * Z)) (n : Z) (v : option vis) (sh : option entry) (l : list nat)
  : option entry :=
  match l with
  | [] => match sh with None => None | Some s => Some (with_vis s (or_else v (evis s))) end
  | x :: t =>
      match refined T (idof h x) n rs with
      | Some e => Some (with_vis e (or_else v (evis e)))
      | None =>
          match norg (at_ h x) with
          | Some _ => walk h T rs n v sh t
          | None =>
              match T (idof h x) n with
              | None => walk h T rs n v sh t
              | Some e =>
                  if eshadow e then walk h T rs n (first v (evis e)) (first sh e) t
                  else match efid e with
                       | Some _ =>
                           let e1 := with_vis e (or_else v (evis e)) in
                           Some (match sh with Some s => with_owner e1 (eowner s) | None => e1 end)
                       | None =>
                           match evis e with
                           | Undefined => None
                           | w => walk h T rs n (first v w) sh t
                           end
                       end
              end
          end
      end
  end.
Definition search_refined (h : heap) (T : tables) (rs : list (Z * Z)) (a : nat) (n : Z) : option entry :=
  walk h T rs n None None (a :: above h a).
(** class.rs:1128-1130. *)
Definition search (h : heap) (T : tables) (a : nat) (n : Z) : option entry := search_refined h T [] a n.

(** * The global method cache *)
(** store.rs:2196-2205 [GlobalMethodCache]. *)
Record gcache := mkc { gver : Z; gmap : Z -> Z -> option (option entry) }.
(** store.rs:2208-2230 [get]. *)
Definition get (g : gcache) (c n v : Z) : option (option entry) * gcache :=
  if gver g =? v then (gmap g c n, g) else (None, mkc v (fun _ _ => None)).
(** store.rs:2232-2248 [insert]. *)
Definition fill (g : gcache) (c n v : Z) (e : option entry) : gcache :=
  mkc v (fun c' n' => if (c' =? c) && (n' =? n) then Some e else gmap g c' n').

(** The class table, the method tables, the class version (a u32), the cache. *)
Record world := mkw { ws : state; wt : tables; wver : Z; wc : gcache }.
Definition TWO32 : Z := 2 ^ 32.
(** codegen.rs:1391-1395: [+= 1] wraps in a release build. *)
Definition bump (w : world) : world := mkw (ws w) (wt w) ((wver w + 1) mod TWO32) (wc w).
Definition with_tables (w : world) (T : tables) : world := mkw (ws w) T (wver w) (wc w).
Definition with_state (w : world) (s : state) : world := mkw s (wt w) (wver w) (wc w).

(** store.rs:1788-1795. *)
Definition find (w : world) (c n : Z) : option entry := search (hp (ws w)) (wt w) (head (ws w) c) n.

(** store.rs:1266-1283 [check_method_for_class_with_version]. *)
Definition look (w : world) (c n : Z) : option entry * world :=
  let '(r, g) := get (wc w) c n (wver w) in
  match r with
  | Some e => (e, mkw (ws w) (wt w) (wver w) g)
  | None => let e := find w c n in (e, mkw (ws w) (wt w) (wver w) (fill g c n (wver w) e))
  end.

(** store.rs:1290-1308 [check_bool_method_with_version].  The key BOOL_CLASS is no
    class of the table. *)
Definition BOOL : Z := -1.
Definition TRUE : Z := 3.
Definition FALSE : Z := 4.
Definition same_fid (a b : option Z) : bool :=
  match a, b with Some x, Some y => x =? y | None, None => true | _, _ => false end.
Definition find_bool (w : world) (n : Z) : option entry :=
  match find w TRUE n, find w FALSE n with
  | Some t, Some f => if same_fid (efid t) (efid f) then Some t else None
  | _, _ => None
  end.
Definition look_bool (w : world) (n : Z) : option entry * world :=
  let '(r, g) := get (wc w) BOOL n (wver w) in
  match r with
  | Some e => (e, mkw (ws w) (wt w) (wver w) g)
  | None => let e := find_bool w n in (e, mkw (ws w) (wt w) (wver w) (fill g BOOL n (wver w) e))
  end.

(** * The operations on the tables *)
(** class.rs:2290-2307 [find_method_for_class]: a method with a body. *)
Definition look_body (w : world) (c n : Z) : option (Z * vis) * world :=
  let '(r, w1) := look w c n in
  (match r with Some e => match efid e with Some f => Some (f, evis e) | None => None end | None => None end, w1).

(** class.rs:2430-2442 [insert_method]. *)
Definition insert_method (w : world) (c n : Z) (e : entry) : world :=
  let w1 := bump w in with_tables w1 (put (wt w1) c n (Some e)).

Inductive mresult := Fine (w : world) | Raise (w : world) | Broken.
Definition real (v : vis) : bool := match v with Undefined => false | _ => true end.

Inductive mop :=
| Classes (o : op)                    (** define a class or a module, include, prepend *)
| Def (c n f : Z) (v : vis)           (** class.rs:2123-2160 [add_method] *)
| Undef (c n : Z)                     (** method.rs:987-996 *)
| Remove (c n : Z)                    (** class.rs:2193-2212 *)
| SetVis (c n : Z) (v : vis)          (** class.rs:2345-2424, one name *)
| Alias (c new old : Z)               (** method.rs:1001-1043 *)
| Look (c n : Z)                      (** any lookup; there is no id without a class *)
| LookBool (n : Z).

(** class.rs:2345-2424. *)
Definition inherited (w : world) (c n : Z) : option Z :=
  match sup (hp (ws w)) (head (ws w) c) with
  | Some p => match search (hp (ws w)) (wt w) p n with Some e => efid e | None => None end
  | None => None
  end.
Definition set_vis (w : world) (c n : Z) (v : vis) : mresult :=
  let '(r, w1) := look_body w c n in
  match r with
  | None => Raise w1
  | Some (f, old) =>
      match wt w1 c n with
      | Some e =>
          let e1 := with_vis e v in
          let e2 := if eshadow e then match inherited w1 c n with Some g => with_fid e1 g | None => e1 end else e1 in
          Fine (bump (with_tables w1 (put (wt w1) c n (Some e2))))
      | None =>
          if same_vis old v then Fine w1
          else Fine (insert_method w1 c n (mke c (Some f) v true))
      end
  end.

Definition mstep (w : world) (o : mop) : mresult :=
  match o with
  | Classes o =>
      match step (ws w) o with
      | State s =>
          (* value/rvalue/module.rs:54: the version moves when a module is mixed in *)
          let w1 := match o with Include _ _ | Prepend _ _ => bump w | _ => w end in
          Fine (with_state w1 s)
      | Raised s => Raise (with_state w s)
      | Crashed | NoFuel => Broken
      end
  | Def c n f v =>
      if defined (ws w) c && real v then Fine (insert_method w c n (mke c (Some f) v false)) else Raise w
  | Undef c n =>
      if defined (ws w) c then
        let '(r, w1) := look_body w c n in
        match r with
        | None => Raise w1
        | Some _ => Fine (insert_method w1 c n (mke c None Undefined false))
        end
      else Raise w
  | Remove c n =>
      if defined (ws w) c then
        let w1 := bump w in
        match wt w1 c n with
        | None => Raise w1
        | Some _ => Fine (with_tables w1 (put (wt w1) c n None))
        end
      else Raise w
  | SetVis c n v => if defined (ws w) c && real v then set_vis w c n v else Raise w
  | Alias c new old =>
      if defined (ws w) c then
        let '(r, w1) := look_body w c old in
        match r with
        | None => Raise w1
        | Some (f, v) => Fine (insert_method w1 c new (mke c (Some f) v false))
        end
      else Raise w
  | Look c n => if defined (ws w) c then Fine (snd (look w c n)) else Broken
  | LookBool n => Fine (snd (look_bool w n))
  end.

Fixpoint mrun (w : world) (l : list mop) : option world :=
  match l with
  | [] => Some w
  | o :: t => match mstep w o with Fine w1 | Raise w1 => mrun w1 t | Broken => None end
  end.

(** TrueClass and FalseClass are defined at the start; no method has been looked up. *)
Definition start_state : state :=
  match step init (NewClass OBJECT false) with
  | State s => match step s (NewClass OBJECT false) with State s' => s' | _ => init end
  | _ => init
  end.
Definition start : world := mkw start_state (fun _ _ => None) 1 (mkc 0 (fun _ _ => None)).

(** * Class.allocate and Class#initialize *)
(** class.rs:1765-1767 [allocate_uninit_class]: a class without a superclass. *)
Definition allocate (w : world) : world :=
  with_state w (new_node (ws w) (mkn (Z.of_nat (length (tbl (ws w)))) None None false false false)).
(** builtins/class.rs:296-318 [class_initialize]; neither version is moved. *)
Definition initialize (w : world) (c p : Z) : world :=
  let h := hp (ws w) in
  match sup h (head (ws w) c) with
  | Some _ => w
  | None => with_state w (mks (set_at h (head (ws w) c) (set_sup (at_ h (head (ws w) c)) (Some (head (ws w) p)))) (tbl (ws w)))
  end.

(** * Module#method_defined?: class.rs:2217-2248 *)
Definition own_method (T : tables) (c n : Z) : option vis :=
  match T c n with Some e => match efid e with Some _ => Some (evis e) | None => None end | None => None end.
Fixpoint own_of (T : tables) (n : Z) (l : list Z) : option vis :=
  match l with [] => None | c :: t => match own_method T c n with Some v => Some v | None => own_of T n t end end.
Definition method_defined (w : world) (c n : Z) : option vis :=
  if is_class (hp (ws w)) (head (ws w) c) then match fst (look w c n) with Some e => Some (evis e) | None => None end
  else own_of (wt w) n (ancestors (ws w) c).

(** * A call and the inline cache of its site *)
Inductive reached := Body (f : Z) | Missing.
(** executor.rs:3000-3098 [find_method], after the lookup, for a receiver that is not
    a boolean.  [fc]: is_func_call; [caller f]: the caller's self is a kind of an
    owner of [f]. *)
Definition admit_call (fc : bool) (caller : Z -> bool) (r : option entry) : reached :=
  match r with
  | None => Missing
  | Some e =>
      match efid e with
      | None => Missing
      | Some f =>
          match evis e with
          | Private => if fc then Body f else Missing
          | Protected => if fc || caller f then Body f else Missing
          | _ => Body f
          end
      end
  end.
(** The call without any cache. *)
Definition dispatch (w : world) (n : Z) (fc : bool) (caller : Z -> bool) (c : Z) : reached :=
  admit_call fc caller (find w c n).

(** vmgen/method_call.rs:41-68, 274-330: the cached class, version, and FuncId; 0 for
    the FuncId: method_missing. *)
Record icache := mki { iclass : Z; iver : Z; ifid : option Z }.
Definition vm_call (w : world) (k : option icache) (n : Z) (fc : bool) (caller : Z -> bool) (c : Z)
  : reached * option icache * world :=
  let hit := match k with Some i => (iclass i =? c) && (iver i =? wver w) | None => false end in
  if hit then
    (match k with Some i => match ifid i with Some f => Body f | None => Missing end | None => Missing end, k, w)
  else
    let '(r, w1) := look w c n in
    let a := admit_call fc caller r in
    (a, Some (mki c (wver w1) (match a with Body f => Some f | Missing => None end)), w1).

(** ** Compiled code *)
(** A compiled call: the class and the body it was compiled for, and the version word
    of its unit ([InlineCacheEntry]; one call in the unit). *)
Record unit_ := mku { uclass : Z; ufid : Z; uver : Z }.
(** jitgen/compile.rs:1246-1263 [jit_check_method] and 1288-1292
    [jit_visibility_blocks]: nothing is compiled for a call that must not be made. *)
Definition compile (w : world) (n : Z) (fc : bool) (c : Z) : option unit_ * world :=
  let '(r, w1) := look w c n in
  (match r with
   | Some e =>
       match efid e with
       | Some f => if same_vis (evis e) Private && negb fc then None else Some (mku c f (wver w1))
       | None => None
       end
   | None => None
   end, w1).
(** The guards of the compiled call for a receiver of its class; class.rs:2560-2640
    [update_inline_cache], [salvage_method_unit]: when the version has moved but the
    body is still the one found, the unit is stamped with the new version and goes on. *)
Definition enter (w : world) (u : option unit_) (n : Z) (fc : bool) (caller : Z -> bool) (c : Z)
  : reached * option unit_ * world :=
  let deopt w := let '(r, w1) := look w c n in (admit_call fc caller r, w1) in
  match u with
  | None => let '(a, w1) := deopt w in (a, None, w1)
  | Some u =>
      if negb (uclass u =? c) then let '(a, w1) := deopt w in (a, Some u, w1)
      else if uver u =? wver w then (Body (ufid u), Some u, w)
      else
        let '(r, w1) := look_body w c n in
        match r with
        | Some (f, _) =>
            if f =? ufid u then (Body (ufid u), Some (mku c (ufid u) (wver w1)), w1)
            else let '(u1, w2) := compile w1 n fc c in let '(a, w3) := deopt w2 in (a, u1, w3)
        | None => let '(u1, w2) := compile w1 n fc c in let '(a, w3) := deopt w2 in (a, u1, w3)
        end
  end.

(** * super *)
Section Super.
(** [inner f]: the block body that the proc-method [f] runs; [owners f]: the classes
    [f] was defined in (FuncInfo::owner_class). *)
Variable inner : Z -> option Z.
Variable owners : Z -> list Z.

(** class.rs:2820-2832 [body_dispatched_by]. *)
Definition dispatches (T : tables) (n f c : Z) : bool :=
  match T c n with
  | None => false
  | Some e =>
      if eshadow e then false
      else match efid e with
           | None => false
           | Some g => (g =? f) || match inner g with Some b => b =? f | None => false end
           end
  end.
Definition at_position (h : heap) (T : tables) (n f : Z) (x : nat) : bool :=
  match norg (at_ h x) with Some _ => false | None => dispatches T n f (idof h x) end.

(** class.rs:2847-2862 [super_occurrences]. *)
Definition occurrences (h : heap) (T : tables) (a : nat) (f n : Z) : nat :=
  length (filter (at_position h T n f) (a :: above h a)).

(** The body that a search of the nodes [l] finds; none if there are no nodes. *)
Definition body_in (h : heap) (T : tables) (n : Z) (l : list nat) : option Z :=
  match l with
  | [] => None
  | _ => match walk h T [] n None None l with Some e => efid e | None => None end
  end.

(** class.rs:2911-2930, the first loop of [check_super_at]: the result and the number
    of positions passed. *)
Fixpoint by_name (h : heap) (T : tables) (f n : Z) (occ : option nat) (matched : nat) (l : list nat)
  : option Z * nat :=
  match l with
  | [] => (None, matched)
  | x :: t =>
      if at_position h T n f x then
        let m := S matched in
        let here := match occ with None => true | Some k => Nat.leb k m end in
        match (if here then body_in h T n t else None) with
        | Some g =>
            if match occ with Some _ => true | None => negb (g =? f) end then (Some g, m)
            else by_name h T f n occ m t
        | None => by_name h T f n occ m t
        end
      else by_name h T f n occ matched t
  end.
(** class.rs:2931-2951, the second loop: the result and [owner_matched]. *)
Fixpoint by_owner (h : heap) (T : tables) (f n : Z) (seen : bool) (l : list nat) : option Z * bool :=
  match l with
  | [] => (None, seen)
  | x :: t =>
      if match norg (at_ h x) with Some _ => false | None => existsb (fun c => c =? idof h x) (owners f) end then
        match body_in h T n t with
        | Some g => if g =? f then by_owner h T f n true t else (Some g, true)
        | None => by_owner h T f n true t
        end
      else by_owner h T f n seen t
  end.
(** class.rs:2904-2963 [check_super_at]. *)
Definition super_at (h : heap) (T : tables) (a : nat) (f n : Z) (occ : option nat) : option Z :=
  let l := a :: above h a in
  let '(r, m) := by_name h T f n occ O l in
  match r with
  | Some g => Some g
  | None =>
      match m with
      | S _ => None
      | O =>
          let '(r2, seen) := by_owner h T f n false l in
          match r2 with
          | Some g => Some g
          | None =>
              if seen then None
              else match body_in h T n l with Some g => if g =? f then None else Some g | None => None end
          end
      end
  end.
(** class.rs:2873-2883 [check_super]. *)
Definition check_super (h : heap) (T : tables) (a : nat) (f n : Z) : option Z :=
  if Nat.ltb 1 (occurrences h T a f n) then None else super_at h T a f n None.
End Super.
