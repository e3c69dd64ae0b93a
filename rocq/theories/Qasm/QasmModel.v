(** Model of the DITQASM export and import.
    Source: quantum_circuit/qasm.py, quantum_circuit/gate.py (__qasm__), quantum_circuit/circuit.py
    (to_qasm, from_qasm and the gate methods), components/*_register.py (from_map, __qasm__) and the
    constructors in quantum_circuit/gates.

    Simplifications: text is ASCII.  Three things outside the code are function arguments (section
    variables): [show_float] is Python's text of a float, [eval] is
    float(eval(expression.replace("pi", ...))) including its except clause (qasm.py:77-85), [load]
    is np.load.  Arrays are opaque values ([Arr]).  save_to_file's .npy export is in FilesModel; here
    path_save is None, as it is when to_qasm is called directly. *)
From Coq Require Import Reals.
Local Close Scope R_scope.
From Verif Require Import Base.Py Base.Text Base.Regex.
From Verif Require Import Circuit.CircuitModel Circuit.GateModel Gates.SingleModel Gates.TwoModel.

(** ** The regular expressions, qasm.py:172-191 *)

Definition Sp1 := Plus (Chr is_space).
Definition Any := Chr (fun a => negb (Ascii.eqb a nl)).   (* . *)
(** qasm.py:173, the dot in 2.0 and qelib1.inc matches any character *)
Definition rx_header : rx :=
  Alt (Seq (Lit "DITQASM") (Seq Sp1 (Seq (Lit "2") (Seq Any (Lit "0;")))))
      (Seq (Lit "include") (Seq Sp1 (Seq (Ch (ascii_of_nat 34)) (Seq (Lit "qelib1") (Seq Any (Seq (Lit "inc") (Seq (Ch (ascii_of_nat 34)) (Lit ";")))))))).
(** qasm.py:174-176 *)
Definition rx_comment : rx := Lit "//".
Definition rx_comment_start : rx := Lit "/*".
Definition rx_comment_end : rx := Lit "*/".
(** qasm.py:177 *)
Definition rx_qreg : rx :=
  Seq (Lit "qreg") (Seq Sp1 (Seq (Grp 1 (Plus W)) (Seq Sp1
   (Seq (Grp 2 (Seq (Ch "[") (Seq Sp (Seq (Plus D) (Seq Sp (Ch "]"))))))
   (Seq (Opt (Seq Sp (Seq (Ch "[") (Seq (Grp 3 (Seq (Plus D) (Star (Seq (Ch ",") (Seq Sp (Plus D)))))) (Ch "]")))))
        (Ch ";")))))).
(** qasm.py:178 *)
Definition rx_creg : rx :=
  Seq (Lit "creg") (Seq Sp1 (Seq (Grp 1 (Plus W)) (Seq Sp (Seq (Ch "[") (Seq Sp (Seq (Grp 2 (Plus D))
   (Seq Sp (Seq (Ch "]") (Seq Sp (Ch ";")))))))))).
(** qasm.py:180 *)
Definition rx_indexing : rx :=
  Seq Sp (Seq (Grp 1 (Plus W)) (Seq Sp (Grp 2 (Seq (Ch "[") (Seq Sp (Seq (Plus D) (Seq Sp (Ch "]")))))))).
(** name[digits] *)
Definition rx_dit : rx := Seq (Plus W) (Seq (Ch "[") (Seq (Plus D) (Ch "]"))).
(** qasm.py:183-187, in parts: the parenthesised parameters (group 2), the targets (groups 3, 4),
    the control clause (groups 5-10) and the whole. *)
Definition not_paren (a : ascii) : bool := negb (Ascii.eqb a ")").
Definition rx_params : rx := Seq (Ch "(") (Seq (Grp 2 (Star (Chr not_paren))) (Ch ")")).
Definition rx_targets : rx := Grp 3 (Seq rx_dit (Seq Sp (Star (Grp 4 (Seq (Ch ",") (Seq Sp rx_dit)))))).
Definition rx_ctl_dit : rx := Seq Sp (Seq (Plus W) (Seq Sp (Seq (Ch "[") (Seq (Plus D) (Ch "]"))))).
Definition rx_ctl_dits : rx := Grp 6 (Seq Sp1 (Seq rx_dit (Seq Sp (Star (Grp 7 rx_ctl_dit))))).
Definition rx_levels : rx :=
  Grp 8 (Seq (Ch "[") (Seq (Grp 9 (Seq (Plus D) (Star (Grp 10 (Seq (Ch ",") (Seq Sp (Plus D))))))) (Ch "]"))).
Definition rx_ctl : rx := Grp 5 (Seq (Lit "ctl") (Seq rx_ctl_dits (Seq Sp rx_levels))).
Definition rx_gate : rx :=
  Seq (Grp 1 (Plus W)) (Seq Sp (Seq (Opt rx_params) (Seq Sp (Seq rx_targets (Seq Sp (Seq (Opt rx_ctl)
  (Seq Sp (Ch ";")))))))).
(** qasm.py:188-189 *)
Definition rx_error : rx := Alt (Lit "gate_matrix") (Lit "if").
Definition rx_ignore : rx := Grp 1 (Alt (Lit "measure") (Lit "barrier")).
(** qasm.py:50, 119, 132: digits in square brackets *)
Definition rx_int : rx := Seq (Ch "[") (Seq (Grp 1 (Plus D)) (Ch "]")).
(** qasm.py:138: digits (group 0 is the whole match) *)
Definition rx_number : rx := Grp 0 (Plus D).

Definition grp (c : caps) (n : nat) : text := match group c n with Some t => t | None => [] end.
(** the int of the first match of rx_int, when there is one *)
Definition bracket_int (s : text) : option nat :=
  match re_search rx_int s with Some (_, c) => Some (read_nat (grp c 1)) | None => None end.

Section Qasm.
Context {Arr : Type}.
Variable arr_empty : Arr -> bool.             (* size == 0 *)
Variable show_float : R -> text.
Variable eval : text -> res (option R).
Variable load : text -> res Arr.

(** What is passed as parameters: nothing, a list (by the user), a tuple of floats (by the importer),
    an array, or a ControlData object that ended up in the parameter position. *)
Inductive parg :=
| ANone | AList (l : list param) | ATuple (l : list (option R)) | AArray (a : Arr) | ACtl (i s : list Z).

(** What the concrete gate classes add to a gate: qasm_tag, _dimensions, _params. *)
Record gdata := GData { d_tag : string; d_dims : list nat; d_par : parg }.

(** ** Export *)

(** str() of a parameter *)
Definition show_param (p : param) : text :=
  match p with PInt z => show_Z z | PFloat x => show_float x | PStr s => tx s end.
Definition show_opt (p : option R) : text :=
  match p with Some x => show_float x | None => tx "None" end.

(** gate.py:161-168, the parameter part; gate.py:222-224 for arrays. *)
Definition paren (l : list text) : text :=
  drop2 (tx "(" ++ concat (map (fun s => s ++ tx ", ") l)) ++ tx ") ".
Definition params_qasm (p : parg) : res text :=
  match p with
  | AArray _ => Ok (tx "(custom_data) ")
  | ANone | AList [] | ATuple [] => Ok []
  | AList l => Ok (paren (map show_param l))
  | ATuple l => Ok (paren (map show_opt l))
  | ACtl _ _ => Err TypeError
  end.

(** inverse_sitemap[qudit] as "label[i]" *)
Definition site {G} (c : circuit G) (q : Z) : res text :=
  if (q <? 0)%Z then Err KeyError
  else match dget Nat.eqb (inverse_sitemap c) (Z.to_nat q) with
       | Some (label, i) => Ok (tx label ++ tx "[" ++ show_nat i ++ tx "]")
       | None => Err KeyError
       end.

(** str() of a list of ints *)
Definition show_list (l : list Z) : text := tx "[" ++ join (tx ", ") (map show_Z l) ++ tx "]".

(** gate.py:158-186 (__qasm__).  Line 183 prints inverse_sitemap[qudit] where qudit is the loop
    variable left over from the targets. *)
Definition gate_qasm {G} (c : circuit G) (g : gate gdata) : res text :=
  let? ps := params_qasm (d_par (g_data g)) in
  let? ts := mapr (site c) (target_lines g) in
  let s := drop2 (tx (d_tag (g_data g)) ++ tx " " ++ ps ++ concat (map (fun t => t ++ tx ", ") ts)) in
  match g_controls g with
  | None => Ok (s ++ tx ";" ++ [nl])
  | Some (idx, levels) =>
      let? q := match rev (target_lines g) with q :: _ => Ok q | [] => Err NameError end in
      let? cs := mapr (fun _ => site c q) idx in
      Ok (s ++ tx " ctl " ++ concat (map (fun t => t ++ tx " ") cs) ++ show_list levels ++ tx ";" ++ [nl])
  end.

(** quantum_register.py:46-48 *)
Definition qreg_qasm (q : qreg) : text :=
  tx "qreg " ++ tx (q_label q) ++ tx " [" ++ show_nat (q_size q) ++ tx "]" ++
  tx "[" ++ join (tx ",") (map show_nat (q_dims q)) ++ tx "]" ++ tx ";".

(** circuit.py:373-376: the measure lines of one register; [k] is the iterator's next value. *)
Fixpoint measure_reg (label : string) (n total k i : nat) : res (text * nat) :=
  match n with
  | O => Ok ([], k)
  | S n' =>
      if Nat.ltb k total then
        let? (t, k') := measure_reg label n' total (S k) (S i) in
        Ok (tx "measure " ++ tx label ++ tx "[" ++ show_nat i ++ tx "] -> meas[" ++ show_nat k ++ tx "];" ++ [nl] ++ t, k')
      else Err StopIteration
  end.
Fixpoint measure_regs (rs : list qreg) (total k : nat) : res text :=
  match rs with
  | [] => Ok []
  | q :: r =>
      let? (t, k') := measure_reg (q_label q) (q_size q) total k 0 in
      let? t' := measure_regs r total k' in
      Ok (t ++ t')
  end.

(** circuit.py:362-378 (to_qasm) *)
Definition to_qasm (c : circuit (gate gdata)) : res text :=
  let? ops := mapr (gate_qasm c) (instructions c) in
  let? ms := measure_regs (quantum_registers c) (List.length (dimensions c)) 0 in
  Ok (tx "DITQASM 2.0;" ++ [nl] ++ concat (map (fun q => qreg_qasm q ++ [nl]) (quantum_registers c)) ++
      tx "creg meas[" ++ show_nat (List.length (dimensions c)) ++ tx "];" ++ [nl] ++ concat ops ++ ms).

(** ** Import: the parser *)

Definition smap := list ((string * nat) * (nat * nat)).
Definition clmap := list ((string * nat) * nat).

(** qasm.py:145: the dict of one gate; qudits are (line, dimension) pairs. *)
Record instr := Instr { i_name : string; i_params : parg; i_qudits : list (nat * nat);
                        i_controls : option (list Z * list Z) }.

Record pstate := PState { p_sitemap : smap; p_classic : clmap; p_gates : list instr; p_comment : bool }.
Definition pinit : pstate := PState [] [] [] false.

(** qasm.py:22-42 (parse_nonspecial_lines): (continue, in_comment) *)
Definition nonspecial (line : text) (in_comment : bool) : bool * bool :=
  match line with
  | [] => (true, in_comment)
  | _ =>
      if matches rx_comment line then (true, in_comment)
      else
        let in_comment := if matches rx_comment_start line then true else in_comment in
        if in_comment then (true, negb (matches rx_comment_end line))
        else (matches rx_header line, in_comment)
  end.

(** qasm.py:59-60: sitemap[name, i] = len(sitemap), qdims[i] *)
Fixpoint qreg_loop (name : string) (qdims : list nat) (i n : nat) (sm : smap) : res smap :=
  match n with
  | O => Ok sm
  | S n' => match nth_error qdims i with
            | None => Err IndexError
            | Some d => qreg_loop name qdims (S i) n' (dset key_eqb sm (name, i) (List.length sm, d))
            end
  end.

(** qasm.py:44-63 (parse_qreg): None when the line is not a register declaration.  [nq] stays
    unbound when the size is written with blanks inside the brackets. *)
Definition parse_qreg (line : text) (sm : smap) : option (res smap) :=
  match re_match rx_qreg line with
  | None => None
  | Some (_, c) =>
      Some (match bracket_int (grp c 2) with
            | None => Err NameError
            | Some nq =>
                let qdims := match group c 3 with
                             | Some t => map (fun s => read_nat (strip is_space s)) (split_on "," t)
                             | None => repeat 2%nat nq
                             end in
                qreg_loop (st (grp c 1)) qdims 0 nq sm
            end)
  end.

(** qasm.py:65-73 (parse_creg) *)
Fixpoint creg_loop (name : string) (i n : nat) (sm : clmap) : clmap :=
  match n with
  | O => sm
  | S n' => creg_loop name (S i) n' (dset key_eqb sm (name, i) (List.length sm))
  end.
Definition parse_creg (line : text) (sm : clmap) : option clmap :=
  match re_match rx_creg line with
  | None => None
  | Some (_, c) => Some (creg_loop (st (grp c 1)) 0 (read_nat (grp c 2)) sm)
  end.

(** qasm.py:104-112: the parameters *)
Definition is_bracket (a : ascii) : bool := existsb (Ascii.eqb a) (tx "()[]").
Definition parse_params (t : option text) : res parg :=
  match t with
  | None | Some [] => Ok (ATuple [])
  | Some t =>
      if containsb (tx ".npy") t then let? a := load t in Ok (AArray a)
      else let? l := mapr eval (split_on "," (strip is_bracket t)) in Ok (ATuple l)
  end.

(** sitemap[name, i] *)
Definition lookup (sm : smap) (name : string) (i : nat) : res (nat * nat) :=
  match dget key_eqb sm (name, i) with Some v => Ok v | None => Err KeyError end.

(** qasm.py:114-124: the target list; pieces that do not look like name[i] are skipped. *)
Fixpoint parse_dits (sm : smap) (l : list text) : res (list (nat * nat)) :=
  match l with
  | [] => Ok []
  | t :: r =>
      match re_match rx_indexing t with
      | Some (_, c) =>
          match bracket_int (grp c 2) with
          | Some i => let? q := lookup sm (st (grp c 1)) i in let? qs := parse_dits sm r in Ok (q :: qs)
          | None => parse_dits sm r
          end
      | None => parse_dits sm r
      end
  end.

(** qasm.py:126-137: the control lines *)
Fixpoint parse_ctls (sm : smap) (l : list caps) : res (list Z) :=
  match l with
  | [] => Ok []
  | c :: r =>
      match bracket_int (grp c 2) with
      | Some i => let? q := lookup sm (st (grp c 1)) i in let? qs := parse_ctls sm r in Ok (Z.of_nat (fst q) :: qs)
      | None => parse_ctls sm r
      end
  end.

(** qasm.py:87-149 (parse_gate): None when the expression is found nowhere in the line. *)
Definition parse_gate (line : text) (sm : smap) : option (res instr) :=
  match re_search rx_gate line with
  | None => None
  | Some (_, c) =>
      Some (let? ps := parse_params (group c 2) in
            let? qs := parse_dits sm (split_on "," (grp c 3)) in
            let? cs := match group c 5 with Some _ => parse_ctls sm (re_findall rx_indexing (grp c 6)) | None => Ok [] end in
            let levels := match group c 8 with
                          | Some t => map (fun m => Z.of_nat (read_nat (grp m 0))) (re_findall rx_number t)
                          | None => [] end in
            Ok (Instr (st (grp c 1)) ps qs
                  (match cs, levels with [], [] => None | _, _ => Some (cs, levels) end)))
  end.

(** qasm.py:203-229: one iteration of the loop over the lines *)
Definition parse_line (s : pstate) (raw : text) : res pstate :=
  let line := strip is_space raw in
  let '(continue, in_comment) := nonspecial line (p_comment s) in
  let s := PState (p_sitemap s) (p_classic s) (p_gates s) in_comment in
  if continue then Ok s
  else match parse_qreg line (p_sitemap s) with
  | Some r => let? sm := r in Ok (PState sm (p_classic s) (p_gates s) in_comment)
  | None =>
  match parse_creg line (p_classic s) with
  | Some cm => Ok (PState (p_sitemap s) cm (p_gates s) in_comment)
  | None =>
  if matches rx_ignore line then Ok s
  else match parse_gate line (p_sitemap s) with
  | Some r => let? g := r in Ok (PState (p_sitemap s) (p_classic s) (p_gates s ++ [g]) in_comment)
  | None => if matches rx_error line then Err NotImplementedError else Err SyntaxError
  end end end.

Fixpoint parse_lines (s : pstate) (ls : list text) : res pstate :=
  match ls with
  | [] => Ok s
  | l :: r => let? s' := parse_line s l in parse_lines s' r
  end.

(** qasm.py:161-238 (parse_ditqasm2_str) *)
Definition parse_qasm (contents : text) : res pstate := parse_lines pinit (split_on nl contents).

(** ** Import: the gate methods of QuantumCircuit *)

(** str(list of dimensions), str(dimension) *)
Definition show_dims (l : list nat) : text := show_list (map Z.of_nat l).

(** The arguments of a call of a gate method.  [a_controls] is what is passed in the place of the
    controls: None, a ControlData, or (for methods without parameters) a tuple. *)
Record call := Call { a_method : string; a_qudits : target; a_par : parg; a_ctl : option (list Z * list Z) }.

(** self.dimensions[qudit], which is a TypeError for a list *)
Definition one_dim (dims : list nat) (q : target) : res nat :=
  match q with TInt t => pyindex dims t | TList _ => Err TypeError end.
(** [self.dimensions[i] for i in qudits], which is a TypeError for an int *)
Definition many_dims (dims : list nat) (q : target) : res (list nat) :=
  match q with TInt _ => Err TypeError | TList ts => mapr (pyindex dims) ts end.

Definition mk (num : nat) (dims : list nat) (pre : string) (shown : text) (t : gtype) (tag : string)
    (q : target) (ds : list nat) (p : parg) (ctl : option (list Z * list Z)) : res (gate gdata) :=
  new_gate num dims (pre ++ st shown)%string t q ctl (GData tag ds p).

(** the parameter argument as the validation functions of SingleModel/TwoModel see it *)
Definition as_params (p : parg) : params :=
  match p with ANone => PNone | AList l => PList l | _ => POther end.

(** A gate without parameters: x.py, z.py, h.py and circuit.py:214, 288, 292. *)
Definition plain_one num dims pre tag (a : call) : res (gate gdata) :=
  let? d := one_dim dims (a_qudits a) in
  mk num dims pre (show_nat d) SINGLE tag (a_qudits a) [d] ANone (a_ctl a).

Definition with_par (g : gate gdata) (p : parg) : gate gdata :=
  {| g_name := g_name g; g_type := g_type g; g_target := g_target g; g_controls := g_controls g;
     g_dagger := g_dagger g; g_long := g_long g;
     g_data := GData (d_tag (g_data g)) (d_dims (g_data g)) p |}.

(** A single-qudit gate with parameters that are stored only if [validate] accepts them: r.py, rz.py,
    rh.py, virt_rz.py, noise_x.py, noise_y.py. *)
Definition param_one num dims pre tag (validate : nat -> params -> res bool) (a : call) : res (gate gdata) :=
  let? d := one_dim dims (a_qudits a) in
  let? g := mk num dims pre (show_nat d) SINGLE tag (a_qudits a) [d] ANone (a_ctl a) in
  let? b := validate d (as_params (a_par a)) in
  Ok (if b : bool then with_par g (a_par a) else g).

Definition some_ok {A} (r : res (option A)) : res bool :=
  let? o := r in Ok (match o with Some _ => true | None => false end).
Definition r_validate (d : nat) (p : params) : res bool := some_ok (r_new d p).
(** rz.py:70-93 *)
Definition rz_validate (d : nat) (p : params) : res bool :=
  match p with
  | PList l => let? a := get_int l 0 in let? b := get_int l 1 in let? f := get_float l 2 in
               if check_levels d a b then Ok true else Err AssertionError
  | _ => Ok false
  end.
(** rh.py:68-90, noise_x.py:60-82, noise_y.py:60-82 *)
Definition rh_validate (d : nat) (p : params) : res bool :=
  match p with
  | PList l => let? a := get_int l 0 in let? b := get_int l 1 in
               if check_levels d a b then Ok true else Err AssertionError
  | _ => Ok false
  end.
Definition vz_validate (d : nat) (p : params) : res bool :=
  Ok (match virtrz_validate d p with Some _ => true | None => false end).
(** perm.py:45-63 on a list; a string compared with a number is a TypeError *)
Definition below (x : R) (n : nat) : bool :=
  if Rle_dec 0 x then if Rlt_dec x (INR n) then true else false else false.
Fixpoint pm_check (d n : nat) (l : list param) : res bool :=
  match l with
  | [] => Ok true
  | PStr _ :: _ => Err TypeError
  | PInt z :: r => if below (IZR z) n && below (IZR z) d then pm_check d n r else Err AssertionError
  | PFloat x :: r => if below x n && below x d then pm_check d n r else Err AssertionError
  end.

(** circuit.py:176-300 and gates/*.py.  [None]: the gate is returned but not added (gellmann). *)
Definition construct (num : nat) (dims : list nat) (a : call) : res (option (gate gdata)) :=
  let m := a_method a in
  let some (r : res (gate gdata)) := let? g := r in Ok (Some g) in
  if String.eqb m "x" then some (plain_one num dims "X" "x" a)
  else if String.eqb m "z" then some (plain_one num dims "Z" "z" a)
  else if String.eqb m "h" then some (plain_one num dims "H" "h" a)
  else if String.eqb m "s" then
    some (let? d := one_dim dims (a_qudits a) in let? u := s_new d in plain_one num dims "S" "s" a)
  else if String.eqb m "r" then some (param_one num dims "R" "rxy" r_validate a)
  else if String.eqb m "rz" then some (param_one num dims "Rz" "rz" rz_validate a)
  else if String.eqb m "rh" then some (param_one num dims "Rh" "rh" rh_validate a)
  else if String.eqb m "virtrz" then some (param_one num dims "VirtRz" "virtrz" vz_validate a)
  else if String.eqb m "noisex" then some (param_one num dims "NoiseX" "noisex" rh_validate a)
  else if String.eqb m "noisey" then some (param_one num dims "NoiseY" "noisey" rh_validate a)
  else if String.eqb m "pm" then
    (* circuit.py:250-252: no controls; perm.py:28-40: _params is stored in any case *)
    some (let? d := one_dim dims (a_qudits a) in
          let? g := mk num dims "Pm" (show_nat d) SINGLE "pm" (a_qudits a) [d] (a_par a) None in
          let? b := match a_par a with AList l => pm_check d (List.length l) l | _ => Ok false end in
          Ok g)
  else if String.eqb m "cu_one" then
    some (let? d := one_dim dims (a_qudits a) in
          mk num dims "CUo" (show_nat d) SINGLE "cuone" (a_qudits a) [d] (a_par a) (a_ctl a))
  else if String.eqb m "cu_two" then
    some (let? ds := many_dims dims (a_qudits a) in
          mk num dims "CUt" (show_dims ds) TWO "cutwo" (a_qudits a) ds (a_par a) (a_ctl a))
  else if String.eqb m "cu_multi" then
    some (let? ds := many_dims dims (a_qudits a) in
          mk num dims "CUm" (show_dims ds) MULTI "cumulti" (a_qudits a) ds (a_par a) (a_ctl a))
  else if String.eqb m "csum" then
    some (let? ds := many_dims dims (a_qudits a) in
          mk num dims "CSum" (show_dims ds) TWO "csum" (a_qudits a) ds ANone None)
  else if String.eqb m "randu" then
    some (let? ds := many_dims dims (a_qudits a) in
          mk num dims "RandU" (show_dims ds) MULTI "rdu" (a_qudits a) ds ANone None)
  else if String.eqb m "cx" then
    (* cx.py:31-51: the default parameters stay unless a list is accepted *)
    some (let? ds := many_dims dims (a_qudits a) in
          let? g := mk num dims "CEx" (show_dims ds) TWO "cx" (a_qudits a) ds (AList [PInt 0; PInt 1; PInt 1; PFloat 0]) None in
          match a_par a with
          | AList l => let? x := cex_new (PList l) in Ok (with_par g (AList l))
          | _ => Ok g
          end)
  else if (String.eqb m "ls" || String.eqb m "ms")%bool then
    (* ls.py:32-45, ms.py:30-43: parameters[0] is read before the checks *)
    some (let? ds := many_dims dims (a_qudits a) in
          let? u := match a_par a with
                    | AList [] | ATuple [] => Err IndexError
                    | ANone | ACtl _ _ => Err TypeError
                    | _ => Ok tt end in
          let? g := mk num dims (if String.eqb m "ls" then "LS" else "MS") (show_dims ds) TWO m (a_qudits a) ds (a_par a) None in
          match a_par a with
          | AList l => let? x := angle_new l in Ok g
          | _ => Ok g
          end)
  else if String.eqb m "gellmann" then
    match a_par a with
    | AList l => let? d := one_dim dims (a_qudits a) in
                 let? x := get_int l 0 in let? y := get_int l 1 in let? s := get_str l 2 in
                 let? b := gellmann_validate x y in Ok None
    | _ => Err AssertionError
    end
  else Err AttributeError.

(** circuit.py:70-89 *)
Definition qasm_set : list (string * string) :=
  [("csum", "csum"); ("cuone", "cu_one"); ("cutwo", "cu_two"); ("cumulti", "cu_multi"); ("cx", "cx");
   ("gell", "gellmann"); ("h", "h"); ("ls", "ls"); ("ms", "ms"); ("pm", "pm"); ("rxy", "r"); ("rh", "rh");
   ("rdu", "randu"); ("rz", "rz"); ("virtrz", "virtrz"); ("s", "s"); ("x", "x"); ("z", "z")]%string.

(** The signatures of the methods: (takes parameters, parameters required, takes controls). *)
Definition signature (m : string) : bool * bool * bool :=
  if existsb (String.eqb m) ["x"; "z"; "h"; "s"]%string then (false, false, true)
  else if existsb (String.eqb m) ["csum"; "randu"]%string then (false, false, false)
  else if String.eqb m "cx" then (true, false, false)
  else if existsb (String.eqb m) ["ls"; "ms"; "pm"]%string then (true, true, false)
  else (true, true, true).

(** is_not_none_or_empty, circuit.py:48-53 *)
Definition par_nonempty (p : parg) : bool :=
  match p with
  | ANone => false
  | AList l => match l with [] => false | _ => true end
  | ATuple l => match l with [] => false | _ => true end
  | AArray a => negb (arr_empty a)
  | ACtl _ _ => true
  end.

(** circuit.py:349-357: the positional call, with Python's arity errors.  When there are no
    parameters but controls, the ControlData is the second positional argument; a tuple in the
    place of the controls fails in Gate.__init__ (vars() of a tuple). *)
Definition positional (m : string) (q : target) (p : parg) (ctl : option (list Z * list Z)) : res call :=
  let '(takes_p, needs_p, takes_c) := signature m in
  if par_nonempty p then
    if takes_p then
      match ctl with
      | None => Ok (Call m q p None)
      | Some c => if takes_c then Ok (Call m q p (Some c)) else Err TypeError
      end
    else Err TypeError
  else match ctl with
  | Some (i, s) =>
      if takes_p then Ok (Call m q (ACtl i s) None)
      else if takes_c then Ok (Call m q ANone (Some (i, s))) else Err TypeError
  | None => if needs_p then Err TypeError else Ok (Call m q ANone None)
  end.

(** circuit.py:334-360: one instruction of the parsed program *)
Definition import_op (c : circuit (gate gdata)) (o : instr) : circuit (gate gdata) * option exn :=
  match dget String.eqb qasm_set (i_name o) with
  | None => (c, None)
  | Some m =>
      match i_qudits o with
      | [] => (c, Some IndexError)
      | qs =>
          let q := match qs with [x] => TInt (Z.of_nat (fst x)) | _ => TList (map (fun x => Z.of_nat (fst x)) qs) end in
          match bindr (positional m q (i_params o) (i_controls o)) (construct (num_qudits c) (dimensions c)) with
          | Ok (Some g) => add_gate c (Ok g)
          | Ok None => (c, None)
          | Err e => (c, Some e)
          end
      end
  end.
Fixpoint import_ops (c : circuit (gate gdata)) (l : list instr) : circuit (gate gdata) * option exn :=
  match l with
  | [] => (c, None)
  | o :: r => match import_op c o with
              | (c', None) => import_ops c' r
              | (c', Some e) => (c', Some e)
              end
  end.

(** quantum_register.py:13-38 (from_map) *)
Fixpoint reg_groups (l : smap) (acc : list (string * (list (nat * nat) * list nat))) : list (string * (list (nat * nat) * list nat)) :=
  match l with
  | [] => acc
  | ((name, i), (line, d)) :: r =>
      reg_groups r (match dget String.eqb acc name with
                    | None => dset String.eqb acc name ([(i, line)], [d])
                    | Some (mp, ds) => dset String.eqb acc name (dset Nat.eqb mp i line, ds ++ [d])
                    end)
  end.
Definition qregs_from_map (sm : smap) : list qreg :=
  map (fun x => QReg (fst x) (List.length (fst (snd x))) (snd (snd x)) (fst (snd x))) (reg_groups sm []).

(** classic_register.py:11-28 (from_map); only label and size are used afterwards, since
    append_classic rewrites every entry of local_sitemap. *)
Fixpoint creg_groups (l : clmap) (acc : list (string * list nat)) : list (string * list nat) :=
  match l with
  | [] => acc
  | ((name, i), _) :: r =>
      creg_groups r (match dget String.eqb acc name with
                     | None => dset String.eqb acc name [i]
                     | Some is => dset String.eqb acc name (if existsb (Nat.eqb i) is then is else is ++ [i])
                     end)
  end.
Definition cregs_from_map (sm : clmap) : list creg :=
  map (fun x => CReg (fst x) (List.length (snd x)) []) (creg_groups sm []).

Fixpoint append_all {G} (c : circuit G) (l : list qreg) : circuit G * option exn :=
  match l with
  | [] => (c, None)
  | q :: r => match append c q with
              | (c', None) => append_all c' r
              | (c', Some e) => (c', Some e)
              end
  end.

(** circuit.py:317-360 (from_qasm): the circuit afterwards and the exception, if any *)
Definition from_qasm (c : circuit (gate gdata)) (prog : text) : circuit (gate gdata) * option exn :=
  let c0 := reset c in
  match parse_qasm prog with
  | Err e => (c0, Some e)
  | Ok p =>
      match append_all c0 (qregs_from_map (p_sitemap p)) with
      | (c1, Some e) => (c1, Some e)
      | (c1, None) => import_ops (fold_left append_classic (cregs_from_map (p_classic p)) c1) (p_gates p)
      end
  end.

End Qasm.
