(** Executors, the queue, and the public interface of bfs_organizer. *)
From Verif Require Import Base Machine Heap Compiler Parser Print.
Open Scope string_scope.
Open Scope list_scope.

(** A compiled_atom*: where the atom is stored (the current query or the program), and the generation of
    that container. The pointer may be followed only while the container has not been replaced. *)
Inductive csrc := SrcQuery | SrcProg.
Record cptr := { cp_src : csrc; cp_gen : nat; cp_atom : catom }.

(** exec_state.h; [SError] also stands for the stored runtime_error *)
Inductive xstate := SRunning | SFail | SSuccess | SArchived | SError (e : rterr).

(** executor.h 43-91. Executors are named by their creation index; 0 is init_executor.
    [x_codes]: the head is term_codes.back(). *)
Record exec := {
  x_parent : option nat;
  x_m : mst lheap;
  x_kids : list nat;
  x_state : xstate;
  x_codes : list cptr
}.

(** bfs_organizer.h 32-44; [o_arena] holds all executors. *)
Record org := {
  o_arena : list exec;
  o_queue : list nat;
  o_stats : Z;                 (** queries_asked, unsigned int *)
  o_limit : Z;                 (** time_limit in microseconds *)
  o_sto : storage;
  o_prog : prog;
  o_built : prog;
  o_query : rule;              (** current_query_code *)
  o_pgen : nat;                (** generation of o_prog *)
  o_qgen : nat                 (** generation of o_query *)
}.

Definition set_arena (o : org) (a : list exec) : org :=
  {| o_arena := a; o_queue := o_queue o; o_stats := o_stats o; o_limit := o_limit o; o_sto := o_sto o;
     o_prog := o_prog o; o_built := o_built o; o_query := o_query o; o_pgen := o_pgen o; o_qgen := o_qgen o |}.
Definition set_queue (o : org) (q : list nat) : org :=
  {| o_arena := o_arena o; o_queue := q; o_stats := o_stats o; o_limit := o_limit o; o_sto := o_sto o;
     o_prog := o_prog o; o_built := o_built o; o_query := o_query o; o_pgen := o_pgen o; o_qgen := o_qgen o |}.
Definition set_stats (o : org) (n : Z) : org :=
  {| o_arena := o_arena o; o_queue := o_queue o; o_stats := n; o_limit := o_limit o; o_sto := o_sto o;
     o_prog := o_prog o; o_built := o_built o; o_query := o_query o; o_pgen := o_pgen o; o_qgen := o_qgen o |}.
Definition set_sto (o : org) (s : storage) : org :=
  {| o_arena := o_arena o; o_queue := o_queue o; o_stats := o_stats o; o_limit := o_limit o; o_sto := s;
     o_prog := o_prog o; o_built := o_built o; o_query := o_query o; o_pgen := o_pgen o; o_qgen := o_qgen o |}.

Definition with_m (e : exec) (m : mst lheap) : exec :=
  {| x_parent := x_parent e; x_m := m; x_kids := x_kids e; x_state := x_state e; x_codes := x_codes e |}.
Definition with_state (e : exec) (s : xstate) : exec :=
  {| x_parent := x_parent e; x_m := x_m e; x_kids := x_kids e; x_state := s; x_codes := x_codes e |}.
Definition with_codes (e : exec) (c : list cptr) : exec :=
  {| x_parent := x_parent e; x_m := x_m e; x_kids := x_kids e; x_state := x_state e; x_codes := c |}.
Definition with_kids (e : exec) (k : list nat) : exec :=
  {| x_parent := x_parent e; x_m := x_m e; x_kids := k; x_state := x_state e; x_codes := x_codes e |}.

(** Following a compiled_atom* *)
Definition follow (o : org) (p : cptr) : out catom :=
  if Nat.eqb (cp_gen p) (match cp_src p with SrcQuery => o_qgen o | SrcProg => o_pgen o end)
  then Val (cp_atom p) else Ub UDangling.

Definition get_exec (o : org) (id : nat) : out exec := of_opt UExec (nth_error (o_arena o) id).
Definition put_exec (o : org) (id : nat) (e : exec) : out org :=
  a <- of_opt UExec (upd (o_arena o) id e) ;; Val (set_arena o a).

(** executor.cpp 52-69: heap_at through the chain of parents. Parents are older than their children, so the
    number of executors bounds the chain. *)
Fixpoint heap_at_f (fuel : nat) (ar : list exec) (p : option nat) (a : nat) : option cell :=
  match fuel with
  | 0 => None
  | S f =>
      match p with
      | None => None
      | Some id =>
          match nth_error ar id with
          | None => None
          | Some e => l_at (heap_at_f f ar (x_parent e)) (m_heap (x_m e)) a
          end
      end
  end.
Definition heap_at (ar : list exec) (p : option nat) (a : nat) : option cell :=
  heap_at_f (S (List.length ar)) ar p a.

(** executor.h 225-231 *)
Definition clear_exec (e : exec) : out exec :=
  match x_codes e with
  | [] => Ub UCode
  | c :: _ => Val (with_codes (with_m e (set_envs (x_m e) (firstn 1 (m_envs (x_m e))))) [c])
  end.

Definition new_m (start : nat) (regs : list cell) (envs : list (list cell)) : mst lheap :=
  {| m_heap := {| l_start := start; l_changes := []; l_own := [] |};
     m_regs := regs; m_mode := None; m_S := 0; m_envs := envs |}.

(** executor.h 213-215 and std::list::push_back: append a child to the arena and the queue *)
Definition add_child (o : org) (id : nat) (c : exec) : out org :=
  e <- get_exec o id ;;
  let cid := List.length (o_arena o) in
  o1 <- put_exec o id (with_kids e (x_kids e ++ [cid])) ;;
  Val (set_queue (set_arena o1 (o_arena o1 ++ [c])) (o_queue o1 ++ [cid])).

Definition rule_ptrs (g : nat) (r : rule) : list cptr :=
  map (fun a => {| cp_src := SrcProg; cp_gen := g; cp_atom := a |}) r.

(** instructions.cpp 363-386: one executor per rule *)
Fixpoint spawn (o : org) (id : nat) (rs : list rule) : out org :=
  match rs with
  | [] => Val o
  | r :: rs' =>
      e <- get_exec o id ;;
      match x_codes e with
      | [] => Ub UCode
      | _ :: codes =>
          o1 <- add_child o id
                  {| x_parent := Some id;
                     x_m := new_m (l_size (m_heap (x_m e))) (m_regs (x_m e)) (m_envs (x_m e));
                     x_kids := []; x_state := SRunning;
                     x_codes := rule_ptrs (o_pgen o) r ++ codes |} ;;
          spawn o1 id rs'
      end
  end.

Inductive rstat := RCont | RFailing | RRaise (e : rterr).

(** instructions.cpp 346-389 *)
Definition do_call (o : org) (id : nat) (f : fview) : out (rstat * org) :=
  let o0 := set_stats o ((o_stats o + 1) mod 4294967296)%Z in
  match plookup f (o_prog o0) with
  | None =>
      e <- get_exec o0 id ;;
      o1 <- put_exec o0 id (with_state e SFail) ;;
      Val (RFailing, o1)
  | Some rs =>
      o1 <- spawn o0 id rs ;;
      e <- get_exec o1 id ;;
      e1 <- clear_exec e ;;
      o2 <- put_exec o1 id (with_state e1 SArchived) ;;
      Val (RCont, o2)
  end.

(** compiled_atom.h 66-70 *)
Definition is_dealloc (a : catom) : bool := Nat.eqb (List.length (ca_code a)) 1.
Fixpoint all_dealloc (o : org) (ps : list cptr) : out bool :=
  match ps with
  | [] => Val true
  | p :: ps' => a <- follow o p ;; if is_dealloc a then all_dealloc o ps' else Val false
  end.

(** instructions.cpp 391-413, executor.h 156-181, 270-279. all_of runs from the back of term_codes. *)
Definition do_proceed (o : org) (id : nat) : out (rstat * org) :=
  e <- get_exec o id ;;
  match x_codes e with
  | [] => Ub UCode
  | c :: codes =>
      d <- all_dealloc o codes ;;
      if d then
        e1 <- clear_exec (with_state e SSuccess) ;;
        o1 <- put_exec o id e1 ;;
        Val (RCont, o1)
      else
        o1 <- put_exec o id
                (with_state (with_codes (with_m e (set_envs (x_m e) (firstn 1 (m_envs (x_m e))))) [c]) SArchived) ;;
        o2 <- add_child o1 id
                {| x_parent := Some id;
                   x_m := new_m (l_size (m_heap (x_m e))) (m_regs (x_m e)) (m_envs (x_m e));
                   x_kids := []; x_state := SRunning; x_codes := codes |} ;;
        Val (RCont, o2)
  end.

(** instructions.cpp 423-437 *)
Definition do_dealloc (o : org) (id : nat) : out (rstat * org) :=
  e <- get_exec o id ;;
  match m_envs (x_m e), x_codes e with
  | [], _ => Ub UEnv
  | _, [] => Ub UCode
  | _ :: envs, _ :: codes =>
      o1 <- put_exec o id (with_codes (with_m e (set_envs (x_m e) envs)) codes) ;;
      Val (RCont, set_queue o1 (o_queue o1 ++ [id]))
  end.

Section Run.
Variable cf : cfg.
Variable fuel : nat.   (** bound on the loops inside one instruction *)

Definition instr_step (o : org) (id : nat) (i : instr) : out (rstat * org) :=
  match i with
  | ICall f => do_call o id f
  | IProceed => do_proceed o id
  | IDealloc => do_dealloc o id
  | _ =>
      e <- get_exec o id ;;
      '(st, m) <- local_step lheap (lops (heap_at (o_arena o) (x_parent e))) cf (o_sto o) fuel i (x_m e) ;;
      match st with
      | Cont => o1 <- put_exec o id (with_m e m) ;; Val (RCont, o1)
      | Failing => o1 <- put_exec o id (with_state (with_m e m) SFail) ;; Val (RFailing, o1)
      | Raise er => o1 <- put_exec o id (with_state (with_m e m) (SError er)) ;; Val (RRaise er, o1)
      end
  end.

(** bfs_organizer.cpp 85-97; clear() after a failure or an error *)
Fixpoint run_instrs (o : org) (id : nat) (is : list instr) : out (rstat * org) :=
  match is with
  | [] => Val (RCont, o)
  | i :: is' =>
      '(st, o1) <- instr_step o id i ;;
      match st with
      | RCont => run_instrs o1 id is'
      | _ => e <- get_exec o1 id ;; e1 <- clear_exec e ;; o2 <- put_exec o1 id e1 ;; Val (st, o2)
      end
  end.

(** substitution_util.cpp 185-212 *)
Definition sub_addr (m : mst lheap) (s : string * nat * bool) : out (string * nat) :=
  let '(nm, r, p) := s in
  c <- (if p then rperm lheap m r else rreg lheap m r) ;;
  a <- get_heap_i c ;; Val (nm, a).
Fixpoint sub_addrs (m : mst lheap) (ss : list (string * nat * bool)) : out (list (string * nat)) :=
  match ss with
  | [] => Val []
  | s :: ss' => a <- sub_addr m s ;; r <- sub_addrs m ss' ;; Val (a :: r)
  end.

(** substitution_util.cpp 219-236: from a query executor up through its grandparents *)
Fixpoint walk (n : nat) (o : org) (id : nat) : out (list (string * nat)) :=
  match n with
  | 0 => Fuel
  | S n' =>
      e <- get_exec o id ;;
      match x_codes e with
      | [p] =>
          a <- follow o p ;;
          here <- (if ca_user a then sub_addrs (x_m e) (ca_subs a) else Val []) ;;
          match x_parent e with
          | None => Val here
          | Some pid =>
              pe <- get_exec o pid ;;
              match x_parent pe with
              | None => Ub UExec
              | Some gid => rest <- walk n' o gid ;; Val (here ++ rest)
              end
          end
      | _ => Ub UAssert
      end
  end.

(** substitution_util.cpp 245-260 *)
Fixpoint bind_names (p : nat -> out string) (l : list (string * nat)) (done : list (string * string))
  : out (list (string * string)) :=
  match l with
  | [] => Val done
  | (nm, a) :: l' =>
      if existsb (fun b => fst b =? nm) done then bind_names p l' done
      else s <- p a ;; bind_names p l' (done ++ [(nm, s)])
  end.

(** substitution_util.cpp 214-262 *)
Definition find_subs (o : org) (id : nat) : out (list (string * string)) :=
  e <- get_exec o id ;;
  match x_parent e with
  | None => Ub UExec
  | Some pid =>
      l <- walk (S (List.length (o_arena o))) o pid ;;
      bind_names (str_of lheap (lops (heap_at (o_arena o) (x_parent e))) (o_sto o) fuel (m_heap (x_m e))
                    (map fst l) false) l []
  end.

Inductive res :=
| RFalse                                   (** no further answer *)
| RAnswer (b : list (string * string))
| RError (e : rterr)
| ROutOfTime
| ROutOfMemory.

(** bfs_organizer.cpp 72-101: one turn of the queue *)
Definition turn (o : org) : out (option res * org) :=
  match o_queue o with
  | [] => Val (Some RFalse, o)
  | id :: q =>
      let o0 := set_queue o q in
      e <- get_exec o0 id ;;
      match x_codes e with
      | [] => Ub UCode
      | p :: _ =>
          a <- follow o0 p ;;
          o1 <- put_exec o0 id (with_m e (set_regs (x_m e) (resize (m_regs (x_m e)) (ca_regs a)))) ;;
          '(st, o2) <- run_instrs o1 id (ca_code a) ;;
          match st with
          | RRaise er => Val (Some (RError er), o2)
          | _ =>
              e2 <- get_exec o2 id ;;
              match x_state e2 with
              | SSuccess => b <- find_subs o2 id ;; Val (Some (RAnswer b), o2)
              | _ => Val (None, o2)
              end
          end
      end
  end.

(** bfs_organizer.cpp 136-151 *)
Definition clear_memory (o : org) : org :=
  {| o_arena := match o_arena o with e :: _ => [with_kids e []] | [] => [] end;
     o_queue := []; o_stats := o_stats o; o_limit := o_limit o; o_sto := empty_storage;
     o_prog := []; o_built := []; o_query := []; o_pgen := S (o_pgen o); o_qgen := S (o_qgen o) |}.

(** What the outside world does during one get_answer: the elapsed time read in turn k, and whether an
    allocation fails in turn k (simplification: an allocation fails only between turns). *)
Record world := { w_time : nat -> Z; w_oom : nat -> bool }.

(** bfs_organizer.cpp 50-106 *)
Fixpoint answer_loop (n k : nat) (w : world) (o : org) : out (res * org) :=
  match n with
  | 0 => Fuel
  | S n' =>
      match o_queue o with
      | [] => Val (RFalse, o)
      | _ =>
          if (o_limit o <? w_time w k)%Z then Val (ROutOfTime, o)
          else if w_oom w k then Val (ROutOfMemory, clear_memory o)
          else
            '(r, o1) <- turn o ;;
            match r with
            | Some r => Val (r, o1)
            | None => answer_loop n' (S k) w o1
            end
      end
  end.
Definition get_answer (n : nat) (w : world) (o : org) : out (res * org) := answer_loop n 0 w o.
End Run.

(** Result of load_program / load_query / validate_*: a compiler::error with its type (None: no error, also
    an error object whose exists() is false), or an escaping std::out_of_range. *)
Inductive load_res := LOk | LErr (e : cerr) | LEscape.

(** bfs_organizer.cpp 24-27 *)
Definition merge (built p : prog) : prog := fold_left (fun p e => pset (fst e) (snd e) p) built p.

(** bfs_organizer.cpp 20-47; None: the parser model ran out of fuel (never happens, ParserFacts.v) *)
Definition load_program (cf : cfg) (text : string) (o : org) : option (load_res * org) :=
  match parse_program text with
  | None => None
  | Some (CErr e) => Some (LErr e, o)
  | Some CEsc => Some (LEscape, o)
  | Some (COk cs) =>
      match compile_program cf cs (o_sto o) with
      | (CErr e, s) => Some (LErr e, set_sto o s)
      | (CEsc, s) => Some (LEscape, set_sto o s)
      | (COk p, s) =>
          Some (LOk,
                {| o_arena := o_arena o; o_queue := o_queue o; o_stats := o_stats o; o_limit := o_limit o;
                   o_sto := s; o_prog := merge (o_built o) p; o_built := o_built o; o_query := o_query o;
                   o_pgen := S (o_pgen o); o_qgen := o_qgen o |})
      end
  end.

Definition query_ptrs (g : nat) (r : rule) : list cptr :=
  map (fun a => {| cp_src := SrcQuery; cp_gen := g; cp_atom := a |}) r.

Definition init_exec (g : nat) (r : rule) : exec :=
  {| x_parent := None; x_m := new_m 0 [] []; x_kids := []; x_state := SRunning; x_codes := query_ptrs g r |}.

(** bfs_organizer.cpp 109-134 *)
Definition load_query (cf : cfg) (text : string) (o : org) : option (load_res * org) :=
  let o0 := set_stats (set_queue o []) 0 in
  match parse_query (append_dot text) with
  | None => None
  | Some (CErr e) => Some (LErr e, o0)
  | Some CEsc => Some (LEscape, o0)
  | Some (COk q) =>
      match compile_query cf q (o_sto o) with
      | (CErr e, s) => Some (LErr e, set_sto o0 s)
      | (CEsc, s) => Some (LEscape, set_sto o0 s)
      | (COk r, s) =>
          let g := S (o_qgen o) in
          Some (LOk,
                {| o_arena := [init_exec g r]; o_queue := [0]; o_stats := 0; o_limit := o_limit o;
                   o_sto := s; o_prog := o_prog o; o_built := o_built o; o_query := r;
                   o_pgen := o_pgen o; o_qgen := g |})
      end
  end.

(** bfs_organizer.cpp 186-188, bfs_organizer.h 38: the constructor; default limit 100 ms *)
Definition new_org (cf : cfg) : out org :=
  match compile_built_ins cf empty_storage with
  | (COk p, s) =>
      Val {| o_arena := [{| x_parent := None; x_m := new_m 0 [] []; x_kids := []; x_state := SRunning;
                            x_codes := [] |}];
             o_queue := []; o_stats := 0; o_limit := 100000; o_sto := s; o_prog := p; o_built := p;
             o_query := []; o_pgen := 0; o_qgen := 0 |}
  | _ => Ub UAssert
  end.

(** bfs_organizer.cpp 190-192 *)
Definition set_time_limit (t : Z) (o : org) : org :=
  {| o_arena := o_arena o; o_queue := o_queue o; o_stats := o_stats o; o_limit := t; o_sto := o_sto o;
     o_prog := o_prog o; o_built := o_built o; o_query := o_query o; o_pgen := o_pgen o; o_qgen := o_qgen o |}.

(** bfs_organizer.cpp 153-174 *)
Definition validate_program (text : string) : option load_res :=
  match parse_program text with
  | None => None
  | Some (COk _) => Some LOk
  | Some (CErr e) => Some (LErr e)
  | Some CEsc => Some LEscape
  end.
Definition validate_query (text : string) : option load_res :=
  match parse_query (append_dot text) with
  | None => None
  | Some (COk _) => Some LOk
  | Some (CErr e) => Some (LErr e)
  | Some CEsc => Some LEscape
  end.

(** compiler_error.h 34-36 seen from the caller *)
Definition reports_error (r : load_res) : bool :=
  match r with LOk => false | LErr CNone => false | LErr _ => true | LEscape => true end.
