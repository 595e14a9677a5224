(** Model of Cartesian genetic programming:
    skdecide/hub/solver/cgp/pycgp/cgp.py (CGP), cgpes.py (CGPES), and the conversions and the check of
    skdecide/hub/solver/cgp/cgp.py.

    - A gene is a natural number (the code never stores another one); numpy integer arrays are lists.
    - Node values are of any type [V] with the initial [0.0] as [zero]; the prints are left out.
    - The functions of the library are total functions of the list of [max_arity] arguments.
    - [rnd.randint(a, b)] takes a draw [d] and gives [a + d mod (b - a + 1)]; an empty range raises
      ValueError.  [rnd.random() < rate] is a boolean of the draw.
    - [to_dot], [to_function_string] and [test] are left out. *)
From Coq Require Import List Bool Arith ZArith QArith.
From Verif Require Import Py PyList.
Import ListNotations.
Local Open Scope nat_scope.

Definition randint (a b : Z) (d : nat) : res nat :=
  if (b <? a)%Z then Err ValueError else Ok (Z.to_nat (a + Z.of_nat d mod (b - a + 1)))%Z.

Section Graph.
Context {V : Type}.
Variable zero : V.

(** cgp.py:11-15, 17-20 *)
Record cgpfunc := { fn : list V -> V; arity : nat }.
Record cgpnode := { n_args : list nat; n_fun : nat }.

(** cgp.py:22-34, 36-54: the attributes of a CGP.  [c_graph] is None until [graph_created]; then the
    output genes, the nodes and [nodes_used].  [recurrency_distance] is kept as a rational. *)
Record graph := { gr_outputs : list nat; gr_nodes : list cgpnode; gr_used : list nat }.
Record cgp := {
  c_genome : list nat; c_inputs : nat; c_outputs : nat; c_cols : nat; c_rows : nat;
  c_library : list cgpfunc; c_recurrency : Q;
  c_graph : option graph; c_values : list V }.

(** cgp.py:32-33 *)
Definition max_arity (lib : list cgpfunc) : nat := fold_left (fun m f => Nat.max m (arity f)) lib 0.
Definition graph_length (c : cgp) : nat := c_cols c * c_rows c.
Definition arity_of (c : cgp) : nat := max_arity (c_library c).

(** cgp.py:22-34 *)
Definition new_cgp (genome : list nat) (ni no cols rows : nat) (lib : list cgpfunc) (rd : Q) : cgp :=
  {| c_genome := genome; c_inputs := ni; c_outputs := no; c_cols := cols; c_rows := rows;
     c_library := lib; c_recurrency := rd; c_graph := None; c_values := [] |}.

(** cgp.py:46-52, the node list; [n] is the number of genes before the outputs still to read. *)
Fixpoint build_nodes (fuel : nat) (genome : list nat) (ma i limit : nat) : res (list cgpnode) :=
  if i <? limit then
    match fuel with
    | O => Err OutOfFuel
    | S k =>
        let* f := lget genome i in
        let* args := mapM (fun j => lget genome (i + j + 1)) (seq 0 ma) in
        let* r := build_nodes k genome ma (i + ma + 1) limit in
        Ok ({| n_args := args; n_fun := f |} :: r)
    end
  else Ok [].

(** [to_evaluate[g - num_inputs] = True] for a gene that is not an input. *)
Definition mark (ni : nat) (t : list bool) (g : nat) : res (list bool) :=
  if ni <=? g then lput t (g - ni) true else Ok t.

(** cgp.py:56-71 [node_to_evaluate]; the second loop goes down from [p - 1] and appends to
    [nodes_used]. *)
Fixpoint mark_down (ni : nat) (nodes : list cgpnode) (p : nat) (t : list bool) : res (list nat) :=
  match p with
  | O => Ok []
  | S q =>
      let* b := lget t q in
      if (b : bool) then
        let* n := lget nodes q in
        let* t' := foldM (mark ni) t (n_args n) in
        let* r := mark_down ni nodes q t' in
        Ok (q :: r)
      else mark_down ni nodes q t
  end.
Definition node_to_evaluate (ni : nat) (len : nat) (outs : list nat) (nodes : list cgpnode) : res (list nat) :=
  let* t := foldM (mark ni) (repeat false len) outs in
  mark_down ni nodes len t.

(** cgp.py:36-54 [create_graph]; [len(genome) - num_outputs] may be negative: then no node and the reads
    of the output genes go wrong. *)
Definition create_graph (c : cgp) : res cgp :=
  let len := length (c_genome c) in
  let* outs := if len <? c_outputs c then Err IndexError
               else mapM (fun i => lget (c_genome c) (len - c_outputs c + i)) (seq 0 (c_outputs c)) in
  let* nodes := build_nodes len (c_genome c) (arity_of c) 0 (len - c_outputs c) in
  let* used := node_to_evaluate (c_inputs c) (graph_length c) outs nodes in
  Ok {| c_genome := c_genome c; c_inputs := c_inputs c; c_outputs := c_outputs c; c_cols := c_cols c;
        c_rows := c_rows c; c_library := c_library c; c_recurrency := c_recurrency c;
        c_graph := Some {| gr_outputs := outs; gr_nodes := nodes; gr_used := used |};
        c_values := repeat zero (graph_length c + c_inputs c) |}.

(** cgp.py:73-75 [load_input_data] *)
Definition load_input (ni : nat) (x : list V) (values : list V) : res (list V) :=
  foldM (fun vs p => let* v := lget x p in lput vs p v) values (seq 0 ni).

(** cgp.py:77-93 [compute_graph]: the arguments are read from the copy made before. *)
Definition compute_node (c : cgp) (nodes : list cgpnode) (old : list V) (vs : list V) (p : nat) : res (list V) :=
  let* n := lget nodes p in
  let* args := mapM (fun i => let* a := lget (n_args n) i in lget old a) (seq 0 (arity_of c)) in
  let* f := lget (c_library c) (n_fun n) in
  lput vs (p + c_inputs c) (fn f args).
Definition compute_graph (c : cgp) (g : graph) (values : list V) : res (list V) :=
  foldM (compute_node c (gr_nodes g) values) values (rev (gr_used g)).

(** cgp.py:95-107 [run] and [read_output] *)
Definition run (c : cgp) (x : list V) : res (cgp * list V) :=
  let* c := match c_graph c with Some _ => Ok c | None => create_graph c end in
  match c_graph c with
  | None => Err AttributeError
  | Some g =>
      let* vs := load_input (c_inputs c) x (c_values c) in
      let* vs := compute_graph c g vs in
      let* out := mapM (lget vs) (gr_outputs g) in
      Ok ({| c_genome := c_genome c; c_inputs := c_inputs c; c_outputs := c_outputs c; c_cols := c_cols c;
             c_rows := c_rows c; c_library := c_library c; c_recurrency := c_recurrency c;
             c_graph := Some g; c_values := vs |}, out)
  end.

(** A user that runs it on one input after the other. *)
Fixpoint runs (c : cgp) (xs : list (list V)) : res (cgp * list (list V)) :=
  match xs with
  | [] => Ok (c, [])
  | x :: r => let* co := run c x in
              let* cr := runs (fst co) r in
              Ok (fst cr, snd co :: snd cr)
  end.

(** cgp.py:109-110 [clone]: the recurrency distance is not passed on. *)
Definition clone (c : cgp) : cgp :=
  new_cgp (c_genome c) (c_inputs c) (c_outputs c) (c_cols c) (c_rows c) (c_library c) 1%Q.

Definition with_genome (c : cgp) (g : list nat) : cgp :=
  {| c_genome := g; c_inputs := c_inputs c; c_outputs := c_outputs c; c_cols := c_cols c; c_rows := c_rows c;
     c_library := c_library c; c_recurrency := c_recurrency c; c_graph := c_graph c; c_values := c_values c |}.

(** The largest value of a gene: the function genes, the output genes. *)
Definition fun_bound (c : cgp) : Z := (Z.of_nat (length (c_library c)) - 1)%Z.
Definition out_bound (c : cgp) : Z := (Z.of_nat (c_inputs c) + Z.of_nat (c_cols c) * Z.of_nat (c_rows c) - 1)%Z.
(** cgp.py:122: [num_inputs + (int(index / (max_arity + 1)) - 1) * num_rows] *)
Definition conn_bound (c : cgp) (index : nat) : Z :=
  (Z.of_nat (c_inputs c) + (Z.of_nat (index / (arity_of c + 1)) - 1) * Z.of_nat (c_rows c))%Z.

(** cgp.py:112-125 [mutate]: each mutation draws an index and a value. *)
Definition mutate_one (c : cgp) (d : nat * nat) : res cgp :=
  let* index := randint 0 (Z.of_nat (length (c_genome c)) - 1) (fst d) in
  let* v := if index <? c_cols c * c_rows c * (arity_of c + 1) then
              if index mod (arity_of c + 1) =? 0 then randint 0 (fun_bound c) (snd d)
              else randint 0 (conn_bound c index) (snd d)
            else randint 0 (out_bound c) (snd d) in
  let* g := lput (c_genome c) index v in
  Ok (with_genome c g).
Definition mutate (c : cgp) (ds : list (nat * nat)) : res cgp := foldM mutate_one c ds.

(** cgp.py:137: [min(max_graph_length + num_inputs - 1, (...) * recurrency_distance)] as an argument of
    [randint], which refuses a number that is not an integer. *)
Definition rec_bound (c : cgp) (index : nat) : res Z :=
  let a := (Z.of_nat (graph_length c) + Z.of_nat (c_inputs c) - 1)%Z in
  let b := (inject_Z (conn_bound c index) * c_recurrency c)%Q in
  if Qle_bool (inject_Z a) b then Ok a
  else if Z.eqb (Qnum (Qred b)) (Qnum (Qred b) / Z.pos (Qden (Qred b)) * Z.pos (Qden (Qred b))) && (Qden (Qred b) =? 1)%positive
       then Ok (Qnum (Qred b)) else Err ValueError.

(** cgp.py:127-143 [mutate_per_gene]; [flip_n], [flip_o]: whether the draw for the gene is below the rate. *)
Definition mutate_gene (flip : nat -> bool) (draw : nat -> nat) (c : cgp) (index : nat) : res cgp :=
  if flip index then
    let* v := if index <? c_cols c * c_rows c * (arity_of c + 1) then
                if index mod (arity_of c + 1) =? 0 then randint 0 (fun_bound c) (draw index)
                else let* b := rec_bound c index in randint 0 b (draw index)
              else randint 0 (out_bound c) (draw index) in
    let* g := lput (c_genome c) index v in
    Ok (with_genome c g)
  else Ok c.
Definition mutate_per_gene (flip : nat -> bool) (draw : nat -> nat) (c : cgp) : res cgp :=
  foldM (mutate_gene flip draw) c (seq 0 (length (c_genome c))).

(** cgp.py:199-215 [random]: the gene at each position is drawn in order; [draw] gives the draw for a
    position of the genome. *)
Definition random_node (ni rows ma nlib : nat) (draw : nat -> nat) (p : nat) : res (list nat) :=
  let g := p * (ma + 1) in
  let* f := randint 0 (Z.of_nat nlib - 1) (draw g) in
  let* args := mapM (fun a => randint 0 (Z.of_nat ni + Z.of_nat (p / rows) * Z.of_nat rows - 1) (draw (g + a + 1))) (seq 0 ma) in
  Ok (f :: args).
Definition random_cgp (ni no cols rows : nat) (lib : list cgpfunc) (rd : Q) (draw : nat -> nat) : res cgp :=
  let ma := max_arity lib in
  let* nodes := mapM (random_node ni rows ma (length lib) draw) (seq 0 (cols * rows)) in
  let* outs := mapM (fun o => randint 0 (Z.of_nat ni + Z.of_nat cols * Z.of_nat rows - 1) (draw (cols * rows * (ma + 1) + o)))
                    (seq 0 no) in
  Ok (new_cgp (concat nodes ++ outs) ni no cols rows lib rd).

(** cgp.py:217-243 [save] and [load_from_file] as the numbers written and read ([str] and [int] are
    inverse on them); the names of the functions are written and ignored. *)
Definition save (c : cgp) : list nat * list nat := ([c_inputs c; c_outputs c; c_cols c; c_rows c], c_genome c).
Definition load (file : list nat * list nat) (lib : list cgpfunc) : res cgp :=
  let* ni := lget (fst file) 0 in let* no := lget (fst file) 1 in
  let* cols := lget (fst file) 2 in let* rows := lget (fst file) 3 in
  Ok (new_cgp (snd file) ni no cols rows lib 1%Q).

(** * cgpes.py:26-65 [CGPES.run] *)

(** [ev it i c]: what the evaluator gives for offspring [i] of iteration [it] (0, 0 for the father at
    the start).  The mutation of offspring [i] of iteration [it] has its own draws. *)
Record draws := { d_flip : nat -> nat -> nat -> bool; d_draw : nat -> nat -> nat -> nat }.
Definition offspring (dr : draws) (father : cgp) (it i : nat) : res cgp :=
  mutate_per_gene (d_flip dr it i) (d_draw dr it i) (clone father).

(** [np.argmax]: the first largest; ValueError when empty. *)
Fixpoint argmax_from (i best : nat) (bv : Z) (l : list Z) : nat :=
  match l with
  | [] => best
  | x :: r => if (bv <? x)%Z then argmax_from (S i) i x r else argmax_from (S i) best bv r
  end.
Definition argmax (l : list Z) : res nat := match l with [] => Err ValueError | x :: r => Ok (argmax_from 1 0 x r) end.

Definition es_step (ev : nat -> nat -> cgp -> Z) (dr : draws) (nb : nat) (s : cgp * Z) (it : nat) : res (cgp * Z) :=
  let (father, fit) := s in
  let* offs := mapM (offspring dr father it) (seq 0 nb) in
  let fits := map (fun ic => ev it (fst ic) (snd ic)) (combine (seq 0 nb) offs) in
  let* b := argmax fits in
  let* bf := lget fits b in
  if (fit <=? bf)%Z then let* o := lget offs b in Ok (o, bf) else Ok (father, fit).
Definition es_run (ev : nat -> nat -> cgp -> Z) (dr : draws) (nb : nat) (father : cgp) (iterations : nat) : res (cgp * Z) :=
  foldM (es_step ev dr nb) (father, ev 0 0 father) (seq 1 iterations).
End Graph.
Arguments cgpfunc : clear implicits. Arguments cgp : clear implicits.

(** * cgp.py:28-48 *)

(** Bounds may be infinite. *)
Inductive bound := Fin (x : Q) | MinusInf | PlusInf.

(** [change_interval] with a finite output range.  ZeroDivisionError when the input range is a point.
    An input range that starts at plus infinity or ends at minus infinity is left out (ValueError). *)
Definition qmax (a b : Q) : Q := if Qle_bool b a then a else b.     (* Python's max(a, b) *)
Definition qmin (a b : Q) : Q := if Qle_bool a b then a else b.
Definition change_interval (x : Q) (inmin inmax : bound) (outmin outmax : Q) : res Q :=
  let* lo := match inmin with Fin q => Ok q | MinusInf => Ok (-1 # 1)%Q | PlusInf => Err ValueError end in
  let* hi := match inmax with Fin q => Ok q | PlusInf => Ok 1%Q | MinusInf => Err ValueError end in
  let x := qmax lo (qmin hi x) in
  if Qeq_bool (hi - lo) 0 then Err ZeroDivisionError
  else Ok ((x - lo) / (hi - lo) * (outmax - outmin) + outmin)%Q.

(** Python's [int] of a rational: towards zero. *)
Definition trunc (x : Q) : Z := Z.quot (Qnum x) (Z.pos (Qden x)).
(** [change_float_to_int_interval] *)
Definition to_int_interval (x : Q) (inmin inmax : bound) (lo hi : Z) : res Z :=
  let* y := change_interval x inmin inmax 0 1 in
  if Qeq_bool y 1 then Ok hi
  else Ok (trunc (y * inject_Z (hi - lo + 1) + inject_Z lo)).

(** cgp.py:65-95 [norm_and_flatten] on a flat list of values and the spaces of its entries:
    a Box as its pairs of bounds, a Discrete with its size. *)
Inductive gspace := Box (b : list (bound * bound)) | Discrete (n : Z) | OtherSpace.
Definition norm_one (x : Q) (b : bound * bound) : res Q := change_interval x (fst b) (snd b) (-1 # 1) 1.
Fixpoint norm_box (vals : list Q) (b : list (bound * bound)) : res (list Q * list Q) :=
  match b with
  | [] => Ok ([], vals)
  | lh :: r => match vals with
               | [] => Err IndexError
               | x :: vs => let* y := norm_one x lh in let* z := norm_box vs r in Ok (y :: fst z, snd z)
               end
  end.
Fixpoint norm_and_flatten (vals : list Q) (ts : list gspace) : res (list Q) :=
  match ts with
  | [] => Ok vals
  | Box b :: r => let* yz := norm_box vals b in let* z := norm_and_flatten (snd yz) r in Ok (fst yz ++ z)
  | Discrete n :: r => match vals with
                       | [] => Err IndexError
                       | x :: vs => let* y := norm_one x (Fin 0, Fin (inject_Z (n - 1))) in
                                    let* z := norm_and_flatten vs r in Ok (y :: z)
                       end
  | OtherSpace :: _ => Err ValueError
  end.

(** cgp.py:130-162 [denorm], without the last step that takes the only entry out of its list; the
    bounds of the boxes are finite ([nan] otherwise) and the boxes have one dimension. *)
Definition fin (b : bound) : res Q := match b with Fin q => Ok q | _ => Err ValueError end.
Definition denorm_one (x : Q) (b : bound * bound) : res Q :=
  let* lo := fin (fst b) in let* hi := fin (snd b) in
  change_interval x (Fin (-1 # 1)) (Fin 1) lo hi.
(** One entry of an action. *)
Inductive entry := EBox (x : Q) | EDisc (i : Z).
Fixpoint denorm_box (vals : list Q) (b : list (bound * bound)) : res (list entry * list Q) :=
  match b with
  | [] => Ok ([], vals)
  | lh :: r => match vals with
               | [] => Err IndexError
               | x :: vs => let* y := denorm_one x lh in let* z := denorm_box vs r in Ok (EBox y :: fst z, snd z)
               end
  end.
Fixpoint denorm (vals : list Q) (ts : list gspace) : res (list entry) :=
  match ts with
  | [] => Ok []
  | Box b :: r => let* yz := denorm_box vals b in let* z := denorm (snd yz) r in Ok (fst yz ++ z)
  | Discrete n :: r => match vals with
                       | [] => Err IndexError
                       | x :: vs => let* y := to_int_interval x (Fin (-1 # 1)) (Fin 1) 0 (n - 1) in
                                    let* z := denorm vs r in Ok (EDisc y :: z)
                       end
  | OtherSpace :: _ => Err ValueError
  end.

(** cgp.py:219-231: the numbers of inputs and outputs are the lengths of a sample; a tuple has one
    component per space, a Discrete sample has no length. *)
Inductive space := One (t : gspace) | TupleOf (ts : list gspace).
Definition components (s : space) : list gspace := match s with One t => [t] | TupleOf ts => ts end.
Definition sample_length (s : space) : nat :=
  match s with One (Box b) => length b | One _ => 1 | TupleOf ts => length ts end.

(** cgp.py:186-213 [_check_domain_additional], for one list of spaces: every element overwrites the
    answer. *)
Definition supported (t : gspace) : bool := match t with OtherSpace => false | _ => true end.
Definition check_spaces (ts : list gspace) : bool := fold_left (fun _ t => supported t) ts true.

(** cgp.py:326-333: the fitness of an evaluation from the sums of rewards of its episodes
    ([np.sort] gives a sorted copy that is dropped). *)
Definition weighted (fits : list Q) : res Q :=
  let w := fold_left (fun s e => (s + inject_Z (Z.of_nat e + 1))%Q) (seq 0 (length fits)) 0%Q in
  let s := fold_left (fun s ef => (s + snd ef * inject_Z (Z.of_nat (fst ef) + 1))%Q) (combine (seq 0 (length fits)) fits) 0%Q in
  if Qeq_bool w 0 then Err ZeroDivisionError else Ok (s / w)%Q.
