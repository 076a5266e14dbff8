(** Programs of DispModel, run both ways.

    Class 1 is C, class 2 the class of the main object.  Object 5 is of class
    C, object 9 is main.  Names: 1 is m, 2 is foo, 3 is bar, 4 is go. *)
From Coq Require Import List Arith Bool PeanoNat.
From Verif Require Import DispModel DispSpec.
Import ListNotations.

Definition set_tab (c n f : nat) (t : table) : table :=
  fun c' n' => if (c' =? c) && (n' =? n) then Some f else t c' n'.

Definition no_table : table := fun _ _ => None.

Definition world_of (t : table) (h : nat -> nat -> nat) : world :=
  World 1 t (fun o => if o =? 9 then 2 else 1) (fun _ => None) 100 h [] true.

Definition heap0 (o i : nat) : nat := i.

(** Functions 1 and the callees are given by a list. *)
Definition prog_of (l : list kind) : prog :=
  Prog (fun f => nth f l (KBody [])) (fun k _ => k).

(** Compile function 1 at its first call, every site has seen class C. *)
Definition eager (callee : bool) : policy :=
  Policy (fun _ _ f _ => f =? 1) (fun _ _ _ => Some 1) (fun _ _ _ => [])
    (fun _ _ _ => callee) (fun _ _ _ => false) (fun _ _ _ => true) (fun _ _ _ _ => 40).

(** ** A singleton method

    def m(x, b) = (x.foo; (def x.foo = ...) if b; x.foo) *)
Definition sing_prog : prog := prog_of
  [ KBody [];
    KBody [SCall 0 3 1 2 []; SIf 2 [SSingle 1 (fun s => set_tab s 2 3)] [];
           SCall 1 4 1 2 []; SMove 1 4];
    KReader 12;
    KReader 13 ].
Definition sing_world : world := world_of (set_tab 1 2 2 no_table) heap0.

Lemma singleton_wrong :
  option_map snd (sstart sing_prog 20 sing_world 1 9 [5; 1]) = Some 13
  /\ option_map snd (start sing_prog (eager false) 20 sing_world 1 9 [5; 1]) = Some 12.
Proof. vm_compute. split; reflexivity. Qed.

(** ** A conversion that redefines a method

    def m(x) = (x.foo; ...x interpolated in a string...; x.foo)
    where to_s of C defines foo again. *)
Definition help_prog : prog := prog_of
  [ KBody [];
    KBody [SCall 0 3 1 2 []; SHelper 4 1 4; SCall 1 5 1 2 []; SMove 1 5];
    KReader 12;
    KReader 13;
    KBody [SDef (set_tab 1 2 3)] ].
Definition help_world : world :=
  world_of (set_tab 1 2 2 (set_tab 1 4 4 no_table)) heap0.

Lemma helper_wrong :
  option_map snd (sstart help_prog 20 help_world 1 9 [5]) = Some 13
  /\ option_map snd (start help_prog (eager false) 20 help_world 1 9 [5]) = Some 12.
Proof. vm_compute. split; reflexivity. Qed.

(** ** A fiber

    class C
      def m = (foo; bar)
      def foo = Fiber.new { go }.resume
      def go = (redefine foo and bar; m)
    end *)
Definition fib_prog : prog := prog_of
  [ KBody [];
    KBody [SCall 0 3 0 2 []; SCall 1 4 0 3 []; SMove 1 4];
    KBody [SFiber 3 0 4];
    KReader 12;
    KBody [SDef (fun t => set_tab 1 2 5 (set_tab 1 3 6 t)); SCall 2 3 0 1 []];
    KReader 13;
    KReader 14 ].
Definition fib_world : world :=
  world_of (set_tab 1 1 1 (set_tab 1 2 2 (set_tab 1 3 3 (set_tab 1 4 4 no_table)))) heap0.

Lemma fiber_wrong :
  option_map snd (sstart fib_prog 20 fib_world 1 5 []) = Some 14
  /\ option_map snd (start fib_prog (eager false) 20 fib_world 1 5 []) = Some 12.
Proof. vm_compute. split; reflexivity. Qed.

(** The same program with a plain call in place of the fiber. *)
Definition call_prog : prog := prog_of
  [ KBody [];
    KBody [SCall 0 3 0 2 []; SCall 1 4 0 3 []; SMove 1 4];
    KBody [SCall 3 3 0 4 []];
    KReader 12;
    KBody [SDef (fun t => set_tab 1 2 5 (set_tab 1 3 6 t)); SCall 2 3 0 1 []];
    KReader 13;
    KReader 14 ].

Lemma call_right :
  option_map snd (sstart call_prog 20 fib_world 1 5 []) = Some 14
  /\ option_map snd (start call_prog (eager false) 20 fib_world 1 5 []) = Some 14
  /\ option_map (fun r => w_quiet (fst r)) (sstart call_prog 20 fib_world 1 5 []) = Some true
  /\ option_map snd (start call_prog (eager true) 20 fib_world 1 5 []) = Some 14.
Proof. vm_compute. repeat split; reflexivity. Qed.

(** The unit registered behind it is not the first one. *)
Lemma call_recompiled :
  match invoke call_prog (eager false) (run call_prog (eager false) 20) jit0 fib_world 1 1 5 [] with
  | Some (j, w, _, _) =>
      match j_units j 1 1 with
      | Some u => Some (u_id u, u_entries u, j_word j (u_id u), w_ver w)
      | None => None
      end
  | None => None
  end = Some (2, [Entry 1 2 5; Entry 1 3 6], 2, 2).
Proof. vm_compute. reflexivity. Qed.
