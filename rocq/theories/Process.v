(** Search branches as independent processes with a flat heap of their own: the specification that the arena of
    executors with shared copy-on-write heaps is shown to implement (Refine.v). *)
From Verif Require Import Base Machine Heap Compiler Parser Print Organizer.

(** A pending branch. [p_trail]: where the variables of the user's query live, newest goal first. *)
Record process := {
  p_m : mst (list cell);
  p_codes : list catom;
  p_trail : out (list (string * nat))
}.

(** What one turn makes of a branch. *)
Inductive step_res :=
| PFails
| PErr (e : rterr)
| PDone (b : list (string * string))
| PKids (l : list process).

Section Process.
Variable cf : cfg.
Variable sto : storage.
Variable fuel : nat.
Variable pg : prog.

Definition fstep := local_step (list cell) fops cf sto fuel.

Fixpoint run_local (is : list instr) (m : mst (list cell)) : out (istat * mst (list cell)) :=
  match is with
  | [] => Val (Cont, m)
  | i :: is' => '(s, m1) <- fstep i m ;;
                match s with Cont => run_local is' m1 | _ => Val (s, m1) end
  end.

(** Where the query variables of a goal are *)
Definition fsub_addr (m : mst (list cell)) (s : string * nat * bool) : out (string * nat) :=
  let '(nm, r, p) := s in
  c <- (if p then rperm (list cell) m r else rreg (list cell) m r) ;;
  a <- get_heap_i c ;; Val (nm, a).
Fixpoint fsub_addrs (m : mst (list cell)) (ss : list (string * nat * bool)) : out (list (string * nat)) :=
  match ss with
  | [] => Val []
  | s :: ss' => a <- fsub_addr m s ;; r <- fsub_addrs m ss' ;; Val (a :: r)
  end.

Definition fresh (m : mst (list cell)) : mst (list cell) :=
  {| m_heap := m_heap m; m_regs := m_regs m; m_mode := None; m_S := 0; m_envs := m_envs m |}.

Definition trail_after (a : catom) (m : mst (list cell)) (t : out (list (string * nat)))
  : out (list (string * nat)) :=
  here <- (if ca_user a then fsub_addrs m (ca_subs a) else Val []) ;;
  rest <- t ;; Val (here ++ rest).

Definition answer_of (h : list cell) (t : out (list (string * nat))) : out (list (string * string)) :=
  l <- t ;; bind_names (str_of (list cell) fops sto fuel h (map fst l) false) l [].

(** One turn of one branch. *)
Definition p_turn (p : process) : out step_res :=
  match p_codes p with
  | [] => Ub UCode
  | a :: rest =>
      let m0 := set_regs (p_m p) (resize (m_regs (p_m p)) (ca_regs a)) in
      '(s, m) <- run_local (removelast (ca_code a)) m0 ;;
      match s with
      | Failing => Val PFails
      | Raise e => Val (PErr e)
      | Cont =>
          match last (ca_code a) IProceed with
          | ICall f =>
              match plookup f pg with
              | None => Val PFails
              | Some rs =>
                  Val (PKids (map (fun r => {| p_m := fresh m; p_codes := r ++ rest;
                                               p_trail := trail_after a m (p_trail p) |}) rs))
              end
          | IProceed =>
              if forallb is_dealloc rest then b <- answer_of (m_heap m) (p_trail p) ;; Val (PDone b)
              else Val (PKids [{| p_m := fresh m; p_codes := rest; p_trail := p_trail p |}])
          | IDealloc =>
              match m_envs m with
              | [] => Ub UEnv
              | _ :: es => Val (PKids [{| p_m := set_envs m es; p_codes := rest; p_trail := p_trail p |}])
              end
          | _ => Ub UAssert
          end
      end
  end.

(** Whether the turn calls a goal *)
Definition p_calls (p : process) : bool :=
  match p_codes p with
  | [] => false
  | a :: _ =>
      match run_local (removelast (ca_code a))
                      (set_regs (p_m p) (resize (m_regs (p_m p)) (ca_regs a))) with
      | Val (Cont, _) => match last (ca_code a) IProceed with ICall _ => true | _ => false end
      | _ => false
      end
  end.
End Process.

(** Shape of compiled atoms: local instructions, then one control instruction. *)
Definition is_local (i : instr) : bool :=
  match i with ICall _ | IProceed | IDealloc => false | _ => true end.
(** instructions that build the arguments of a goal *)
Definition is_put (i : instr) : bool :=
  match i with
  | IPutStruct _ _ | ISetVar _ _ | ISetPVar _ _ | ISetVal _ | ISetPVal _ | IPutVar _ _ _ | IPutPVar _ _ _
  | IPutVal _ _ | IPutPVal _ _ | IAlloc _ => true
  | _ => false
  end.
Definition query_shape (a : catom) : Prop :=
  (exists is f, ca_code a = is ++ [ICall f] /\ forallb is_put is = true) \/ ca_code a = [IDealloc].
Definition head_shape (a : catom) : Prop :=
  exists is, ca_code a = is ++ [IProceed] /\ forallb is_local is = true /\ ca_user a = false.
Definition rule_shape (r : rule) : Prop :=
  match r with
  | [] => False
  | h :: b => head_shape h /\ Forall query_shape b
  end.
Definition prog_shape (p : prog) : Prop := forall f rs r, plookup f p = Some rs -> In r rs -> rule_shape r.
