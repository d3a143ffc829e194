(** The search with the positions: every compiled atom an executor works on carries the code_info recorded with it. *)
From Verif Require Import Base Machine Heap Facts Compiler Parser ParserFacts Texts Grammar Organizer Examples Spec Print Valuation Process Turn Shape Session Code Put Search PutRun Get Alloc Atoms Clause Parsed Flat Loads Roundtrip Exprs Language Positions CompAt LockHist.
Open Scope string_scope.
Open Scope list_scope.

(** source_code_info.h 24-28, config.h 16 *)
Definition built_in_line : N := 1696969.
Definition built_in_info (s : string) : info := {| i_begin := built_in_line; i_end := built_in_line; i_text := s |}.

(** compiled rules with the positions of their atoms (rule::_code_info is left out: nothing reads it) *)
Definition code_at := list catom_at.
Definition table_at := list (fview * list code_at).
Fixpoint tlookup (f : fview) (p : table_at) : option (list code_at) :=
  match p with
  | [] => None
  | (g, rs) :: p' => if fview_eqb f g then Some rs else tlookup f p'
  end.
Fixpoint tadd (f : fview) (r : code_at) (p : table_at) : table_at :=
  match p with
  | [] => [(f, [r])]
  | (g, rs) :: p' => if fview_eqb f g then (g, rs ++ [r]) :: p' else (g, rs) :: tadd f r p'
  end.
Fixpoint tset (f : fview) (rs : list code_at) (p : table_at) : table_at :=
  match p with
  | [] => [(f, rs)]
  | (g, rs') :: p' => if fview_eqb f g then (g, rs) :: p' else (g, rs') :: tset f rs p'
  end.
Definition tmerge (built p : table_at) : table_at := fold_left (fun p e => tset (fst e) (snd e) p) built p.
Definition table_of (p : prog_at) : table_at := map (fun e => (fst e, map snd (snd e))) p.

(** built_in_pred_comp.cpp 11-21, 41-43 *)
Definition binary_text (nm : string) : string := "Lhs " +++ nm +++ " Rhs".
Definition insert_pred_at (f : nat -> nat -> instr) (xl xr : nat) (r : code_at) : code_at :=
  match r with
  | [] => []
  | (a, i) :: r' => ({| ca_regs := ca_regs a; ca_code := insert_before_last (f xl xr) (ca_code a);
                        ca_subs := ca_subs a; ca_node := ca_node a; ca_user := ca_user a |}, i) :: r'
  end.
Definition compile_binary_at (cf : cfg) (nm : string) (f : nat -> nat -> instr) (p : table_at) : acomp table_at :=
  let n := binary_pred nm in
  let '(xl, xr) := pred_regs n in
  '(fv, r) <@ compile_program_term_at cf true [(n, built_in_info (binary_text nm))] ;;
  aret (tadd fv (insert_pred_at f xl xr r) p).
(** append.cpp 7-46 *)
Definition append_clauses_at : list (list (node * info)) :=
  [ [(NFun "append" [NFun "[" []; NVar "List2"; NVar "List2"], built_in_info "append([], List2, List2)")];
    [(NFun "append" [NFun "[" [NVar "X"; NVar "Xs"]; NVar "Ys"; NFun "[" [NVar "X"; NVar "Rs"]], built_in_info "append([X | Xs], Ys, [X | Rs])");
     (NFun "append" [NVar "Xs"; NVar "Ys"; NVar "Rs"], built_in_info "append(Xs, Ys, Rs)")] ].
(** built_in_pred_comp.cpp 49-58 *)
Fixpoint compile_others_at (cf : cfg) (cs : list (list (node * info))) (p : table_at) : acomp table_at :=
  match cs with
  | [] => aret p
  | c :: cs' =>
      '(f, r) <@ compile_program_term_at cf true c ;;
      compile_others_at cf cs' (tadd f r p)
  end.
(** built_in_pred_comp.cpp 23-61 *)
Definition compile_built_ins_at (cf : cfg) : acomp table_at :=
  p1 <@ compile_binary_at cf "is" IIs [] ;;
  p2 <@ compile_binary_at cf "==" IEq p1 ;;
  p3 <@ compile_binary_at cf "\==" INeq p2 ;;
  compile_others_at cf append_clauses_at p3.

(** executor.h 43-91 *)
Definition ptr_at := (cptr * option info)%type.
Record exec_at := {
  y_parent : option nat;
  y_m : mst lheap;
  y_kids : list nat;
  y_state : xstate;
  y_codes : list ptr_at
}.
Definition plain_exec (e : exec_at) : exec :=
  {| x_parent := y_parent e; x_m := y_m e; x_kids := y_kids e; x_state := y_state e; x_codes := map fst (y_codes e) |}.
(** bfs_organizer.h 32-44 *)
Record org_at := {
  a_arena : list exec_at;
  a_queue : list nat;
  a_stats : Z;
  a_limit : Z;
  a_sto : storage;
  a_prog : table_at;
  a_built : table_at;
  a_query : code_at;
  a_pgen : nat;
  a_qgen : nat
}.
Definition plain_table (p : table_at) : prog := map (fun e => (fst e, map (map fst) (snd e))) p.
Definition plain (o : org_at) : org :=
  {| o_arena := map plain_exec (a_arena o); o_queue := a_queue o; o_stats := a_stats o; o_limit := a_limit o; o_sto := a_sto o;
     o_prog := plain_table (a_prog o); o_built := plain_table (a_built o); o_query := map fst (a_query o); o_pgen := a_pgen o; o_qgen := a_qgen o |}.

Definition aset_arena (o : org_at) (a : list exec_at) : org_at :=
  {| a_arena := a; a_queue := a_queue o; a_stats := a_stats o; a_limit := a_limit o; a_sto := a_sto o;
     a_prog := a_prog o; a_built := a_built o; a_query := a_query o; a_pgen := a_pgen o; a_qgen := a_qgen o |}.
Definition aset_queue (o : org_at) (q : list nat) : org_at :=
  {| a_arena := a_arena o; a_queue := q; a_stats := a_stats o; a_limit := a_limit o; a_sto := a_sto o;
     a_prog := a_prog o; a_built := a_built o; a_query := a_query o; a_pgen := a_pgen o; a_qgen := a_qgen o |}.
Definition aset_stats (o : org_at) (n : Z) : org_at :=
  {| a_arena := a_arena o; a_queue := a_queue o; a_stats := n; a_limit := a_limit o; a_sto := a_sto o;
     a_prog := a_prog o; a_built := a_built o; a_query := a_query o; a_pgen := a_pgen o; a_qgen := a_qgen o |}.
Definition aset_sto (o : org_at) (s : storage) : org_at :=
  {| a_arena := a_arena o; a_queue := a_queue o; a_stats := a_stats o; a_limit := a_limit o; a_sto := s;
     a_prog := a_prog o; a_built := a_built o; a_query := a_query o; a_pgen := a_pgen o; a_qgen := a_qgen o |}.
Definition ywith_m (e : exec_at) (m : mst lheap) : exec_at :=
  {| y_parent := y_parent e; y_m := m; y_kids := y_kids e; y_state := y_state e; y_codes := y_codes e |}.
Definition ywith_state (e : exec_at) (s : xstate) : exec_at :=
  {| y_parent := y_parent e; y_m := y_m e; y_kids := y_kids e; y_state := s; y_codes := y_codes e |}.
Definition ywith_codes (e : exec_at) (c : list ptr_at) : exec_at :=
  {| y_parent := y_parent e; y_m := y_m e; y_kids := y_kids e; y_state := y_state e; y_codes := c |}.
Definition ywith_kids (e : exec_at) (k : list nat) : exec_at :=
  {| y_parent := y_parent e; y_m := y_m e; y_kids := k; y_state := y_state e; y_codes := y_codes e |}.

Definition get_at (o : org_at) (id : nat) : out exec_at := of_opt UExec (nth_error (a_arena o) id).
Definition put_at (o : org_at) (id : nat) (e : exec_at) : out org_at :=
  a <- of_opt UExec (upd (a_arena o) id e) ;; Val (aset_arena o a).
(** executor.h 225-231 *)
Definition clear_at (e : exec_at) : out exec_at :=
  match y_codes e with
  | [] => Ub UCode
  | c :: _ => Val (ywith_codes (ywith_m e (set_envs (y_m e) (firstn 1 (m_envs (y_m e))))) [c])
  end.
(** executor.h 213-215 *)
Definition add_child_at (o : org_at) (id : nat) (c : exec_at) : out org_at :=
  e <- get_at o id ;;
  let cid := List.length (a_arena o) in
  o1 <- put_at o id (ywith_kids e (y_kids e ++ [cid])) ;;
  Val (aset_queue (aset_arena o1 (a_arena o1 ++ [c])) (a_queue o1 ++ [cid])).
Definition ptrs_at (s : csrc) (g : nat) (r : code_at) : list ptr_at :=
  map (fun a => ({| cp_src := s; cp_gen := g; cp_atom := fst a |}, snd a)) r.
(** instructions.cpp 363-386 *)
Fixpoint spawn_at (o : org_at) (id : nat) (rs : list code_at) : out org_at :=
  match rs with
  | [] => Val o
  | r :: rs' =>
      e <- get_at o id ;;
      match y_codes e with
      | [] => Ub UCode
      | _ :: codes =>
          o1 <- add_child_at o id
                  {| y_parent := Some id;
                     y_m := new_m (l_size (m_heap (y_m e))) (m_regs (y_m e)) (m_envs (y_m e));
                     y_kids := []; y_state := SRunning;
                     y_codes := ptrs_at SrcProg (a_pgen o) r ++ codes |} ;;
          spawn_at o1 id rs'
      end
  end.

(** a runtime error with the code_info of the atom being run: err_handling.cpp 8-27, arithmetic_checks.cpp 9-18 *)
Inductive rstat_at := ACont | AFailing | ARaise (e : rterr) (i : option info).
Definition cur_info (e : exec_at) : option info := match y_codes e with [] => None | c :: _ => snd c end.

(** instructions.cpp 346-389 *)
Definition do_call_at (o : org_at) (id : nat) (f : fview) : out (rstat_at * org_at) :=
  let o0 := aset_stats o ((a_stats o + 1) mod 4294967296)%Z in
  match tlookup f (a_prog o0) with
  | None =>
      e <- get_at o0 id ;;
      o1 <- put_at o0 id (ywith_state e SFail) ;;
      Val (AFailing, o1)
  | Some rs =>
      o1 <- spawn_at o0 id rs ;;
      e <- get_at o1 id ;;
      e1 <- clear_at e ;;
      o2 <- put_at o1 id (ywith_state e1 SArchived) ;;
      Val (ACont, o2)
  end.
(** instructions.cpp 391-413 *)
Definition do_proceed_at (o : org_at) (id : nat) : out (rstat_at * org_at) :=
  e <- get_at o id ;;
  match y_codes e with
  | [] => Ub UCode
  | c :: codes =>
      d <- all_dealloc (plain o) (map fst codes) ;;
      if d then
        e1 <- clear_at (ywith_state e SSuccess) ;;
        o1 <- put_at o id e1 ;;
        Val (ACont, o1)
      else
        o1 <- put_at o id
                (ywith_state (ywith_codes (ywith_m e (set_envs (y_m e) (firstn 1 (m_envs (y_m e))))) [c]) SArchived) ;;
        o2 <- add_child_at o1 id
                {| y_parent := Some id;
                   y_m := new_m (l_size (m_heap (y_m e))) (m_regs (y_m e)) (m_envs (y_m e));
                   y_kids := []; y_state := SRunning; y_codes := codes |} ;;
        Val (ACont, o2)
  end.
(** instructions.cpp 423-437 *)
Definition do_dealloc_at (o : org_at) (id : nat) : out (rstat_at * org_at) :=
  e <- get_at o id ;;
  match m_envs (y_m e), y_codes e with
  | [], _ => Ub UEnv
  | _, [] => Ub UCode
  | _ :: envs, _ :: codes =>
      o1 <- put_at o id (ywith_codes (ywith_m e (set_envs (y_m e) envs)) codes) ;;
      Val (ACont, aset_queue o1 (a_queue o1 ++ [id]))
  end.

Section Run.
Variable cf : cfg.
Variable fuel : nat.
Definition instr_step_at (o : org_at) (id : nat) (i : instr) : out (rstat_at * org_at) :=
  match i with
  | ICall f => do_call_at o id f
  | IProceed => do_proceed_at o id
  | IDealloc => do_dealloc_at o id
  | _ =>
      e <- get_at o id ;;
      '(st, m) <- local_step lheap (lops (heap_at (o_arena (plain o)) (y_parent e))) cf (a_sto o) fuel i (y_m e) ;;
      match st with
      | Cont => o1 <- put_at o id (ywith_m e m) ;; Val (ACont, o1)
      | Failing => o1 <- put_at o id (ywith_state (ywith_m e m) SFail) ;; Val (AFailing, o1)
      | Raise er => o1 <- put_at o id (ywith_state (ywith_m e m) (SError er)) ;; Val (ARaise er (cur_info e), o1)
      end
  end.
(** bfs_organizer.cpp 85-97 *)
Fixpoint run_instrs_at (o : org_at) (id : nat) (is : list instr) : out (rstat_at * org_at) :=
  match is with
  | [] => Val (ACont, o)
  | i :: is' =>
      '(st, o1) <- instr_step_at o id i ;;
      match st with
      | ACont => run_instrs_at o1 id is'
      | _ => e <- get_at o1 id ;; e1 <- clear_at e ;; o2 <- put_at o1 id e1 ;; Val (st, o2)
      end
  end.
(** A result, and the code_info in it if it is an error of a predicate (runtime_error.h 14-34). *)
Definition res_at := (res * option info)%type.
(** bfs_organizer.cpp 72-101 *)
Definition turn_at (o : org_at) : out (option res_at * org_at) :=
  match a_queue o with
  | [] => Val (Some (RFalse, None), o)
  | id :: q =>
      let o0 := aset_queue o q in
      e <- get_at o0 id ;;
      match y_codes e with
      | [] => Ub UCode
      | p :: _ =>
          a <- follow (plain o0) (fst p) ;;
          o1 <- put_at o0 id (ywith_m e (set_regs (y_m e) (resize (m_regs (y_m e)) (ca_regs a)))) ;;
          '(st, o2) <- run_instrs_at o1 id (ca_code a) ;;
          match st with
          | ARaise er i => Val (Some (RError er, i), o2)
          | _ =>
              e2 <- get_at o2 id ;;
              match y_state e2 with
              | SSuccess => b <- find_subs fuel (plain o2) id ;; Val (Some (RAnswer b, None), o2)
              | _ => Val (None, o2)
              end
          end
      end
  end.
(** bfs_organizer.cpp 136-151 *)
Definition clear_memory_at (o : org_at) : org_at :=
  {| a_arena := match a_arena o with e :: _ => [ywith_kids e []] | [] => [] end;
     a_queue := []; a_stats := a_stats o; a_limit := a_limit o; a_sto := empty_storage;
     a_prog := []; a_built := []; a_query := []; a_pgen := S (a_pgen o); a_qgen := S (a_qgen o) |}.
(** bfs_organizer.cpp 50-106 *)
Fixpoint answer_loop_at (n k : nat) (w : world) (o : org_at) : out (res_at * org_at) :=
  match n with
  | 0 => Fuel
  | S n' =>
      match a_queue o with
      | [] => Val ((RFalse, None), o)
      | _ =>
          if (a_limit o <? w_time w k)%Z then Val ((ROutOfTime, None), o)
          else if w_oom w k then Val ((ROutOfMemory, None), clear_memory_at o)
          else
            '(r, o1) <- turn_at o ;;
            match r with
            | Some r => Val (r, o1)
            | None => answer_loop_at n' (S k) w o1
            end
      end
  end.
Definition get_answer_at (n : nat) (w : world) (o : org_at) : out (res_at * org_at) := answer_loop_at n 0 w o.
End Run.

(** Result of loading, and the code_info in a compiler::error (compiler_error.h 13-32); where a syntax error is reported: ErrPos.v *)
(** bfs_organizer.cpp 20-47 *)
Definition load_program_at (cf : cfg) (text : string) (o : org_at) : option ((load_res * option info) * org_at) :=
  match parse_program_at text with
  | None => None
  | Some (CErr e) => Some ((LErr e, None), o)
  | Some CEsc => Some ((LEscape, None), o)
  | Some (COk cs) =>
      match compile_clauses_at cf false cs [] (a_sto o) with
      | (AErr e i, s) => Some ((LErr e, Some i), aset_sto o s)
      | (AEsc, s) => Some ((LEscape, None), aset_sto o s)
      | (AOk p, s) =>
          Some ((LOk, None),
                {| a_arena := a_arena o; a_queue := a_queue o; a_stats := a_stats o; a_limit := a_limit o;
                   a_sto := s; a_prog := tmerge (a_built o) (table_of p); a_built := a_built o; a_query := a_query o;
                   a_pgen := S (a_pgen o); a_qgen := a_qgen o |})
      end
  end.
Definition init_exec_at (g : nat) (r : code_at) : exec_at :=
  {| y_parent := None; y_m := new_m 0 [] []; y_kids := []; y_state := SRunning; y_codes := ptrs_at SrcQuery g r |}.
(** bfs_organizer.cpp 109-134 *)
Definition load_query_at (cf : cfg) (text : string) (o : org_at) : option ((load_res * option info) * org_at) :=
  let o0 := aset_stats (aset_queue o []) 0 in
  match parse_query_at (append_dot text) with
  | None => None
  | Some (CErr e) => Some ((LErr e, None), o0)
  | Some CEsc => Some ((LEscape, None), o0)
  | Some (COk q) =>
      match compile_query_at cf (snd q) (a_sto o) with
      | (AErr e i, s) => Some ((LErr e, Some i), aset_sto o0 s)
      | (AEsc, s) => Some ((LEscape, None), aset_sto o0 s)
      | (AOk r, s) =>
          let g := S (a_qgen o) in
          Some ((LOk, None),
                {| a_arena := [init_exec_at g r]; a_queue := [0]; a_stats := 0; a_limit := a_limit o;
                   a_sto := s; a_prog := a_prog o; a_built := a_built o; a_query := r;
                   a_pgen := a_pgen o; a_qgen := g |})
      end
  end.
(** bfs_organizer.cpp 186-188 *)
Definition new_at (cf : cfg) : out org_at :=
  match compile_built_ins_at cf empty_storage with
  | (AOk p, s) =>
      Val {| a_arena := [{| y_parent := None; y_m := new_m 0 [] []; y_kids := []; y_state := SRunning; y_codes := [] |}];
             a_queue := []; a_stats := 0; a_limit := 100000; a_sto := s; a_prog := p; a_built := p;
             a_query := []; a_pgen := 0; a_qgen := 0 |}
  | _ => Ub UAssert
  end.
(** bfs_organizer.cpp 190-192 *)
Definition set_limit_at (t : Z) (o : org_at) : org_at :=
  {| a_arena := a_arena o; a_queue := a_queue o; a_stats := a_stats o; a_limit := t; a_sto := a_sto o;
     a_prog := a_prog o; a_built := a_built o; a_query := a_query o; a_pgen := a_pgen o; a_qgen := a_qgen o |}.

(** the public calls, as in LockHist.v *)
Definition load_out_at (x : option ((load_res * option info) * org_at)) : out ((reply * option info) * org_at) :=
  match x with Some ((r, i), o) => Val ((ReplyLoad r, i), o) | None => Fuel end.
Definition perform_at (cf : cfg) (c : call) (o : org_at) : out ((reply * option info) * org_at) :=
  match c with
  | CallProgram text => load_out_at (load_program_at cf text o)
  | CallQuery text => load_out_at (load_query_at cf text o)
  | CallAnswer fuel n w => '(r, o') <- get_answer_at cf fuel n w o ;; Val ((ReplyAnswer (fst r) (a_stats o'), snd r), o')
  | CallLimit t => Val ((ReplyLimit, None), set_limit_at t o)
  end.
Fixpoint play_at (cf : cfg) (cs : list call) (o : org_at) : list (out (reply * option info)) :=
  match cs with
  | [] => []
  | c :: cs' => match perform_at cf c o with
                | Val (r, o') => Val r :: play_at cf cs' o'
                | Ub u => [Ub u]
                | Fuel => [Fuel]
                end
  end.
Fixpoint states_at (cf : cfg) (cs : list call) (o : org_at) : list org_at :=
  o :: match cs with
       | [] => []
       | c :: cs' => match perform_at cf c o with Val (_, o') => states_at cf cs' o' | _ => [] end
       end.

(** --- the positions change nothing of the rest --- *)
Definition omap {A B} (f : A -> B) (x : out A) : out B := match x with Val a => Val (f a) | Ub u => Ub u | Fuel => Fuel end.
Lemma omap_bind {A B C} (g : B -> C) (m : out A) (k : A -> out B) : omap g (bind m k) = bind m (fun a => omap g (k a)).
Proof. destruct m; reflexivity. Qed.
Lemma nth_map {A B} (f : A -> B) l n : nth_error (map f l) n = option_map f (nth_error l n).
Proof. revert n. induction l as [|a l IH]; intros [|n]; cbn; auto. Qed.
Lemma upd_map {A B} (f : A -> B) l n x : upd (map f l) n (f x) = option_map (map f) (upd l n x).
Proof.
  revert n. induction l as [|a l IH]; intros [|n]; cbn; auto. rewrite IH. destruct (upd l n x); reflexivity.
Qed.
Lemma get_plain o id : get_exec (plain o) id = omap plain_exec (get_at o id).
Proof. unfold get_exec, get_at. cbn [o_arena plain]. rewrite nth_map. destruct (nth_error (a_arena o) id); reflexivity. Qed.
Lemma put_plain o id e : put_exec (plain o) id (plain_exec e) = omap plain (put_at o id e).
Proof. unfold put_exec, put_at. cbn [o_arena plain]. rewrite upd_map. destruct (upd (a_arena o) id e); reflexivity. Qed.
Lemma clear_plain e : clear_exec (plain_exec e) = omap plain_exec (clear_at e).
Proof. unfold clear_exec, clear_at. cbn [x_codes plain_exec]. destruct (y_codes e); reflexivity. Qed.
Lemma add_child_plain o id c : add_child (plain o) id (plain_exec c) = omap plain (add_child_at o id c).
Proof.
  unfold add_child, add_child_at. rewrite get_plain. destruct (get_at o id) as [e|u|]; try reflexivity. cbn [omap bind].
  change (with_kids (plain_exec e) (x_kids (plain_exec e) ++ [List.length (o_arena (plain o))])) with
    (plain_exec (ywith_kids e (y_kids e ++ [List.length (map plain_exec (a_arena o))]))). rewrite map_length, put_plain.
  destruct (put_at o id _) as [o1|u|]; try reflexivity. cbn [omap bind]. unfold plain, set_queue, set_arena, aset_queue, aset_arena. cbn. now rewrite map_app, map_length.
Qed.
Lemma ptrs_plain s g r : map fst (ptrs_at s g r) = map (fun a => {| cp_src := s; cp_gen := g; cp_atom := a |}) (map fst r).
Proof. unfold ptrs_at. rewrite !map_map. reflexivity. Qed.
Lemma spawn_plain id rs : forall o, spawn (plain o) id (map (map fst) rs) = omap plain (spawn_at o id rs).
Proof.
  induction rs as [|r rs IH]; intros o; [reflexivity|]. cbn [spawn spawn_at map]. rewrite get_plain. destruct (get_at o id) as [e|u|]; try reflexivity. cbn [omap bind].
  cbn [x_codes plain_exec]. destruct (y_codes e) as [|c codes]; [reflexivity|]. cbn [map].
  match goal with |- bind (add_child _ _ ?x) _ = _ => replace x with (plain_exec {| y_parent := Some id; y_m := new_m (l_size (m_heap (y_m e))) (m_regs (y_m e)) (m_envs (y_m e));
     y_kids := []; y_state := SRunning; y_codes := ptrs_at SrcProg (a_pgen o) r ++ codes |}) end.
  - rewrite add_child_plain. destruct (add_child_at o id _) as [o1|u|]; try reflexivity. cbn [omap bind]. apply IH.
  - unfold plain_exec. cbn. unfold rule_ptrs. now rewrite map_app, ptrs_plain.
Qed.
Lemma lookup_plain f p : plookup f (plain_table p) = option_map (map (map fst)) (tlookup f p).
Proof. induction p as [|[g rs] p IH]; [reflexivity|]. cbn. destruct (fview_eqb f g); [reflexivity|exact IH]. Qed.
Definition plain_stat (s : rstat_at) : rstat := match s with ACont => RCont | AFailing => RFailing | ARaise e _ => RRaise e end.
Definition plain_step (x : rstat_at * org_at) : rstat * org := (plain_stat (fst x), plain (snd x)).
Lemma call_plain o id f : do_call (plain o) id f = omap plain_step (do_call_at o id f).
Proof.
  unfold do_call, do_call_at. change (set_stats (plain o) ((o_stats (plain o) + 1) mod 4294967296)%Z) with (plain (aset_stats o ((a_stats o + 1) mod 4294967296)%Z)).
  set (o0 := aset_stats o _). cbn [o_prog plain]. rewrite lookup_plain. destruct (tlookup f (a_prog o0)) as [rs|]; cbn [option_map].
  - change (plain_table (a_prog o)) with (plain_table (a_prog o0)). rewrite spawn_plain. destruct (spawn_at o0 id rs) as [o1|u|]; try reflexivity. cbn [omap bind]. rewrite get_plain.
    destruct (get_at o1 id) as [e|u|]; try reflexivity. cbn [omap bind]. rewrite clear_plain. destruct (clear_at e) as [e1|u|]; try reflexivity. cbn [omap bind].
    change (with_state (plain_exec e1) SArchived) with (plain_exec (ywith_state e1 SArchived)). rewrite put_plain. destruct (put_at o1 id _); reflexivity.
  - rewrite get_plain. destruct (get_at o0 id) as [e|u|]; try reflexivity. cbn [omap bind].
    change (with_state (plain_exec e) SFail) with (plain_exec (ywith_state e SFail)). rewrite put_plain. destruct (put_at o0 id _); reflexivity.
Qed.
Lemma proceed_plain o id : do_proceed (plain o) id = omap plain_step (do_proceed_at o id).
Proof.
  unfold do_proceed, do_proceed_at. rewrite get_plain. destruct (get_at o id) as [e|u|]; try reflexivity. cbn [omap bind]. cbn [x_codes plain_exec]. destruct (y_codes e) as [|c codes] eqn:Ec; [reflexivity|]. cbn [map].
  destruct (all_dealloc (plain o) (map fst codes)) as [[|]|u|]; try reflexivity; cbn [omap bind].
  - change (with_state (plain_exec e) SSuccess) with (plain_exec (ywith_state e SSuccess)). rewrite clear_plain. destruct (clear_at (ywith_state e SSuccess)) as [e1|u|]; try reflexivity. cbn [omap bind].
    rewrite put_plain. destruct (put_at o id e1); reflexivity.
  - match goal with |- bind (put_exec _ _ ?x) _ = _ => change x with (plain_exec (ywith_state (ywith_codes (ywith_m e (set_envs (y_m e) (firstn 1 (m_envs (y_m e))))) [c]) SArchived)) end.
    rewrite put_plain. destruct (put_at o id _) as [o1|u|]; try reflexivity. cbn [omap bind].
    match goal with |- bind (add_child _ _ ?x) _ = _ => change x with (plain_exec {| y_parent := Some id; y_m := new_m (l_size (m_heap (y_m e))) (m_regs (y_m e)) (m_envs (y_m e));
      y_kids := []; y_state := SRunning; y_codes := codes |}) end.
    rewrite add_child_plain. destruct (add_child_at o1 id _); reflexivity.
Qed.
Lemma dealloc_plain o id : do_dealloc (plain o) id = omap plain_step (do_dealloc_at o id).
Proof.
  unfold do_dealloc, do_dealloc_at. rewrite get_plain. destruct (get_at o id) as [e|u|]; try reflexivity. cbn [omap bind]. cbn [x_codes x_m plain_exec].
  destruct (m_envs (y_m e)) as [|v envs]; [reflexivity|]. destruct (y_codes e) as [|c codes]; [reflexivity|]. cbn [map].
  match goal with |- bind (put_exec _ _ ?x) _ = _ => change x with (plain_exec (ywith_codes (ywith_m e (set_envs (y_m e) envs)) codes)) end.
  rewrite put_plain. destruct (put_at o id _); reflexivity.
Qed.
Section Erase.
Variable cf : cfg.
Variable fuel : nat.
Lemma instr_plain o id i : instr_step cf fuel (plain o) id i = omap plain_step (instr_step_at cf fuel o id i).
Proof.
  assert (L : forall i, (e <- get_exec (plain o) id ;;
      '(st, m) <- local_step lheap (lops (heap_at (o_arena (plain o)) (x_parent e))) cf (o_sto (plain o)) fuel i (x_m e) ;;
      match st with
      | Cont => o1 <- put_exec (plain o) id (with_m e m) ;; Val (RCont, o1)
      | Failing => o1 <- put_exec (plain o) id (with_state (with_m e m) SFail) ;; Val (RFailing, o1)
      | Raise er => o1 <- put_exec (plain o) id (with_state (with_m e m) (SError er)) ;; Val (RRaise er, o1)
      end) = omap plain_step (e <- get_at o id ;;
      '(st, m) <- local_step lheap (lops (heap_at (o_arena (plain o)) (y_parent e))) cf (a_sto o) fuel i (y_m e) ;;
      match st with
      | Cont => o1 <- put_at o id (ywith_m e m) ;; Val (ACont, o1)
      | Failing => o1 <- put_at o id (ywith_state (ywith_m e m) SFail) ;; Val (AFailing, o1)
      | Raise er => o1 <- put_at o id (ywith_state (ywith_m e m) (SError er)) ;; Val (ARaise er (cur_info e), o1)
      end)).
  { intros j. rewrite get_plain. destruct (get_at o id) as [e|u|]; try reflexivity. cbn [omap bind]. cbn [x_parent x_m plain_exec]. change (o_sto (plain o)) with (a_sto o).
    destruct (local_step lheap _ cf (a_sto o) fuel j (y_m e)) as [[st m]|u|]; try reflexivity. cbn [omap bind]. destruct st as [| |er].
    - change (with_m (plain_exec e) m) with (plain_exec (ywith_m e m)). rewrite put_plain. destruct (put_at o id _); reflexivity.
    - change (with_state (with_m (plain_exec e) m) SFail) with (plain_exec (ywith_state (ywith_m e m) SFail)). rewrite put_plain. destruct (put_at o id _); reflexivity.
    - change (with_state (with_m (plain_exec e) m) (SError er)) with (plain_exec (ywith_state (ywith_m e m) (SError er))). rewrite put_plain. destruct (put_at o id _); reflexivity. }
  destruct i; try exact (L _).
  - apply call_plain.
  - apply proceed_plain.
  - apply dealloc_plain.
Qed.
Lemma run_plain id is : forall o, run_instrs cf fuel (plain o) id is = omap plain_step (run_instrs_at cf fuel o id is).
Proof.
  induction is as [|i is IH]; intros o; [reflexivity|]. cbn [run_instrs run_instrs_at]. rewrite instr_plain. destruct (instr_step_at cf fuel o id i) as [[st o1]|u|]; try reflexivity. cbn [omap bind plain_step fst snd].
  destruct st as [| |er j]; cbn [plain_stat]; [apply IH| |]; (rewrite get_plain; destruct (get_at o1 id) as [e|u|]; try reflexivity; cbn [omap bind]; rewrite clear_plain; destruct (clear_at e) as [e1|u|]; try reflexivity; cbn [omap bind];
    rewrite put_plain; destruct (put_at o1 id e1); reflexivity).
Qed.
Lemma turn_plain o : turn cf fuel (plain o) = omap (fun x => (option_map fst (fst x), plain (snd x))) (turn_at cf fuel o).
Proof.
  unfold turn, turn_at. change (o_queue (plain o)) with (a_queue o). destruct (a_queue o) as [|id q]; [reflexivity|].
  change (set_queue (plain o) q) with (plain (aset_queue o q)). set (o0 := aset_queue o q). rewrite get_plain. destruct (get_at o0 id) as [e|u|]; try reflexivity. cbn [omap bind]. cbn [x_codes plain_exec].
  destruct (y_codes e) as [|p codes]; [reflexivity|]. cbn [map]. destruct (follow (plain o0) (fst p)) as [a|u|]; try reflexivity. cbn [bind omap].
  match goal with |- bind (put_exec _ _ ?x) _ = _ => change x with (plain_exec (ywith_m e (set_regs (y_m e) (resize (m_regs (y_m e)) (ca_regs a))))) end.
  rewrite put_plain. destruct (put_at o0 id _) as [o1|u|]; try reflexivity. cbn [omap bind]. rewrite run_plain.
  destruct (run_instrs_at cf fuel o1 id (ca_code a)) as [[st o2]|u|]; try reflexivity. cbn [omap bind plain_step fst snd].
  destruct st as [| |er j]; cbn [plain_stat]; [| |reflexivity]; (rewrite get_plain; destruct (get_at o2 id) as [e2|u|]; try reflexivity; cbn [omap bind]; cbn [x_state plain_exec];
    destruct (y_state e2); try reflexivity; destruct (find_subs fuel (plain o2) id); reflexivity).
Qed.
Lemma answer_plain n : forall k w o, answer_loop cf fuel n k w (plain o) = omap (fun x => (fst (fst x), plain (snd x))) (answer_loop_at cf fuel n k w o).
Proof.
  induction n as [|n IH]; intros k w o; [reflexivity|]. cbn [answer_loop answer_loop_at]. change (o_queue (plain o)) with (a_queue o). change (o_limit (plain o)) with (a_limit o).
  destruct (a_queue o) as [|id q]; [reflexivity|]. destruct (a_limit o <? w_time w k)%Z; [reflexivity|]. destruct (w_oom w k).
  - cbn [omap fst snd]. f_equal. f_equal. unfold clear_memory, clear_memory_at, plain. cbn. f_equal. destruct (a_arena o); reflexivity.
  - rewrite turn_plain. destruct (turn_at cf fuel o) as [[r o1]|u|]; try reflexivity. cbn [omap bind fst snd]. destruct r as [[r i]|]; [reflexivity|apply IH].
Qed.
End Erase.
Lemma set_plain f rs p : plain_table (tset f rs p) = pset f (map (map fst) rs) (plain_table p).
Proof. induction p as [|[g rs'] p IH]; [reflexivity|]. cbn. destruct (fview_eqb f g); [reflexivity|]. cbn. f_equal. exact IH. Qed.
Lemma merge_plain b : forall p, plain_table (tmerge b p) = merge (plain_table b) (plain_table p).
Proof. unfold tmerge, merge. induction b as [|e b IH]; intros p; [reflexivity|]. cbn [fold_left plain_table map fst snd]. rewrite <- set_plain. apply IH. Qed.
Lemma add_plain f r p : plain_table (tadd f r p) = padd f (map fst r) (plain_table p).
Proof. induction p as [|[g rs] p IH]; [reflexivity|]. cbn. destruct (fview_eqb f g); cbn; [now rewrite map_app|]. f_equal. exact IH. Qed.
Lemma table_plain p : plain_table (table_of p) = plain_prog p.
Proof. unfold plain_table, table_of, plain_prog. rewrite map_map. apply map_ext. intros [f rs]. cbn. now rewrite map_map. Qed.
Lemma load_program_plain cf text o : load_program cf text (plain o) = option_map (fun x => (fst (fst x), plain (snd x))) (load_program_at cf text o).
Proof.
  unfold load_program, load_program_at. rewrite program_erased. destruct (parse_program_at text) as [[cs|e|]|]; try reflexivity.
  assert (K : compile_program cf (map (fun c => map fst (snd c)) cs) (o_sto (plain o)) = forget plain_prog (compile_clauses_at cf false cs [] (a_sto o))) by (symmetry; exact (clauses_erased cf false cs [] (a_sto o))). rewrite K.
  destruct (compile_clauses_at cf false cs [] (a_sto o)) as [[p|e i|] s]; cbn; try reflexivity. unfold plain. cbn. rewrite merge_plain, table_plain. reflexivity.
Qed.
Lemma load_query_plain cf text o : load_query cf text (plain o) = option_map (fun x => (fst (fst x), plain (snd x))) (load_query_at cf text o).
Proof.
  unfold load_query, load_query_at. rewrite query_erased. destruct (parse_query_at (append_dot text)) as [[q|e|]|]; try reflexivity.
  pose proof (compile_query_erased cf (snd q) (a_sto o)) as K. change (o_sto (plain o)) with (a_sto o). rewrite <- K.
  destruct (compile_query_at cf (snd q) (a_sto o)) as [[p|e i|] s]; cbn; try reflexivity. unfold plain. cbn. unfold init_exec, plain_exec. cbn. unfold query_ptrs. rewrite ptrs_plain. reflexivity.
Qed.
Theorem perform_plain cf c o : perform cf c (plain o) = omap (fun x => (fst (fst x), plain (snd x))) (perform_at cf c o).
Proof.
  destruct c as [text|text|fuel n w|t]; cbn [perform perform_at].
  - rewrite load_program_plain. destruct (load_program_at cf text o) as [[[r i] o1]|]; reflexivity.
  - rewrite load_query_plain. destruct (load_query_at cf text o) as [[[r i] o1]|]; reflexivity.
  - unfold get_answer, get_answer_at. rewrite answer_plain. destruct (answer_loop_at cf fuel n 0 w o) as [[[r i] o1]|u|]; reflexivity.
  - reflexivity.
Qed.
Theorem play_plain cf cs : forall o, play cf cs (plain o) = map (omap fst) (play_at cf cs o).
Proof.
  induction cs as [|c cs IH]; intros o; [reflexivity|]. cbn [play play_at]. rewrite perform_plain. destruct (perform_at cf c o) as [[[r i] o1]|u|]; try reflexivity. cbn [omap fst snd map]. now rewrite IH.
Qed.
Theorem states_plain cf cs : forall o, states cf cs (plain o) = map plain (states_at cf cs o).
Proof.
  induction cs as [|c cs IH]; intros o; [reflexivity|]. cbn [states states_at map]. f_equal. rewrite perform_plain. destruct (perform_at cf c o) as [[[r i] o1]|u|]; try reflexivity. cbn [omap fst snd]. apply IH.
Qed.
Lemma binary_plain cf nm f p s : forget plain_table (compile_binary_at cf nm f p s) = compile_binary cf nm f (plain_table p) s.
Proof.
  unfold compile_binary_at, compile_binary. destruct (pred_regs (binary_pred nm)) as [xl xr]. unfold cbind. change [binary_pred nm] with (map fst [(binary_pred nm, built_in_info (binary_text nm))]). rewrite <- (clause_at_erased cf true [(binary_pred nm, built_in_info (binary_text nm))] s). unfold abind.
  destruct (compile_program_term_at cf true _ s) as [[[fv r]|e i|] s1]; try reflexivity. unfold forget. cbn [fst snd]. cbv delta [aret cret] beta iota. cbn [fst snd]. rewrite add_plain. do 3 f_equal.
  destruct r as [|[a i] r]; reflexivity.
Qed.
Lemma others_plain cf cs : forall p s, forget plain_table (compile_others_at cf cs p s) = compile_clauses cf true (map (map fst) cs) (plain_table p) s.
Proof.
  induction cs as [|c cs IH]; intros p s; [reflexivity|]. cbn [compile_others_at compile_clauses map]. unfold cbind. rewrite <- (clause_at_erased cf true c s). unfold abind.
  destruct (compile_program_term_at cf true c s) as [[[f r]|e j|] s1]; try reflexivity. rewrite IH, add_plain. reflexivity.
Qed.
Lemma forget_bind {A B C D} (g : A -> C) (h : B -> D) (m : acomp A) (k : A -> acomp B) (m' : comp C) (k' : C -> comp D) s :
  (forall s, forget g (m s) = m' s) -> (forall a s, forget h (k a s) = k' (g a) s) -> forget h (abind m k s) = cbind m' k' s.
Proof.
  intros Hm Hk. unfold abind, cbind. rewrite <- Hm. destruct (m s) as [[a|e i|] s1]; try reflexivity. cbn. apply Hk.
Qed.
Lemma built_ins_plain cf s : forget plain_table (compile_built_ins_at cf s) = compile_built_ins cf s.
Proof.
  unfold compile_built_ins_at, compile_built_ins. apply (forget_bind plain_table plain_table); [intros s1; exact (binary_plain cf "is" IIs [] s1)|]. intros p1 s1.
  apply (forget_bind plain_table plain_table); [intros s2; apply binary_plain|]. intros p2 s2. apply (forget_bind plain_table plain_table); [intros s3; apply binary_plain|]. intros p3 s3. exact (others_plain cf append_clauses_at p3 s3).
Qed.
Theorem new_plain cf : new_org cf = omap plain (new_at cf).
Proof. unfold new_org, new_at. rewrite <- built_ins_plain. destruct (compile_built_ins_at cf empty_storage) as [[p|e i|] s]; reflexivity. Qed.
