(** * Model of the command line of vgpa_main.py (lines 148-179).  Definitions only.
    argparse is modelled after CPython 3.11 (Lib/argparse.py: _parse_known_args, _parse_optional,
    _get_option_tuples, parse_args), for the parser of lines 156-166: the options -h/--help (no
    argument), --params and --data (one argument each), no positional arguments, abbreviations
    allowed.  Strings are lists of 8-bit characters; the digits of the pattern for negative numbers
    are the ASCII digits. *)
From Coq Require Import ZArith List Bool Arith String Ascii.
From Verif Require Import Num M_Sim.
Import ListNotations.
Local Open Scope string_scope.

Definition dash : ascii := "-"%char.
Definition equals : ascii := "="%char.

Inductive act := AHelp | AParams | AData.
(** _option_string_actions, in the order of add_argument (lines 156-166) *)
Definition options : list (string * act) :=
  [("-h", AHelp); ("--help", AHelp); ("--params", AParams); ("--data", AData)].
Fixpoint lookup (s : string) (l : list (string * act)) : option act :=
  match l with
  | [] => None
  | (o, a) :: l' => if String.eqb s o then Some a else lookup s l'
  end.

(** str.partition("="): text before the first "=", and the text after it if there is one *)
Fixpoint partition (s : string) : string * option string :=
  match s with
  | EmptyString => (EmptyString, None)
  | String c s' => if Ascii.eqb c equals then (EmptyString, Some s')
                   else let '(p, r) := partition s' in (String c p, r)
  end.
Fixpoint has_space (s : string) : bool :=
  match s with
  | EmptyString => false
  | String c s' => Ascii.eqb c " "%char || has_space s'
  end.
(** the pattern for negative numbers: a dash, then digits, or digits, a point and digits; the
    end of the pattern also matches before a final newline *)
Definition is_digit (c : ascii) : bool := (48 <=? nat_of_ascii c)%nat && (nat_of_ascii c <=? 57)%nat.
Fixpoint skip_digits (s : string) : string :=
  match s with
  | String c s' => if is_digit c then skip_digits s' else s
  | EmptyString => EmptyString
  end.
Definition at_end (s : string) : bool :=
  match s with
  | EmptyString => true
  | String c EmptyString => Ascii.eqb c "010"%char
  | _ => false
  end.
Definition starts_digit (s : string) : bool := match s with String c _ => is_digit c | EmptyString => false end.
Definition negative_number (s : string) : bool :=
  match s with
  | String c s' =>
      Ascii.eqb c dash &&
      ((starts_digit s' && at_end (skip_digits s')) ||
       match skip_digits s' with
       | String p r => Ascii.eqb p "."%char && starts_digit r && at_end (skip_digits r)
       | EmptyString => false
       end)
  | EmptyString => false
  end.

(** What one command-line string is: an argument, or an option with its action (None: no such
    option), whether the name has a single dash, and the separator ("=" or nothing) and text given with it. *)
Inductive kind :=
| KArg
| KOpt (a : option act) (short : bool) (sep : bool) (explicit : option string).

(** _get_option_tuples *)
Definition option_tuples (s : string) : list kind :=
  match s with
  | String _ (String c2 rest) =>
      if Ascii.eqb c2 dash
      then let '(p, e) := partition s in
           map (fun oa => KOpt (Some (snd oa)) (String.eqb (fst oa) "-h") (match e with Some _ => true | None => false end) e)
               (filter (fun oa => prefix p (fst oa)) options)
      else flat_map (fun oa =>
             if String.eqb (fst oa) (String dash (String c2 EmptyString))
             then [KOpt (Some (snd oa)) true false (Some rest)]
             else if prefix s (fst oa) then [KOpt (Some (snd oa)) (String.eqb (fst oa) "-h") false None]
             else []) options
  | _ => []
  end.
(** _parse_optional; None: the ambiguous option, parser.error *)
Definition parse_optional (s : string) : option kind :=
  match s with
  | EmptyString => Some KArg
  | String c rest =>
      if negb (Ascii.eqb c dash) then Some KArg
      else match lookup s options with
      | Some a => Some (KOpt (Some a) (String.eqb s "-h") false None)
      | None =>
          if String.eqb rest EmptyString then Some KArg
          else
            let '(p, e) := partition s in
            match (match e with Some x => match lookup p options with Some a => Some (a, x) | None => None end | None => None end) with
            | Some (a, x) => Some (KOpt (Some a) (String.eqb p "-h") true (Some x))
            | None =>
                match option_tuples s with
                | _ :: _ :: _ => None
                | [t] => Some t
                | [] => if negative_number s then Some KArg
                        else if has_space s then Some KArg
                        else Some (KOpt None false false None)
                end
            end
      end
  end.
(** the first loop of _parse_known_args; "--" and all after it are no options ([false]: the
    string cannot be the argument of an option, which the pattern demands to be an "A") *)
Fixpoint classify (l : list string) : option (list (string * kind * bool)) :=
  match l with
  | [] => Some []
  | s :: l' =>
      if String.eqb s "--"
      then Some ((s, KArg, false) :: map (fun x => (x, KArg, true)) l')
      else match parse_optional s, classify l' with
           | Some k, Some r => Some ((s, k, true) :: r)
           | _, _ => None
           end
  end.

(** -h followed by text in the same string: the loop of consume_optional.  true: the help is
    shown, false: parser.error *)
Fixpoint help_text (sep : bool) (e : string) : bool :=
  match e with
  | EmptyString => false
  | String c e' =>
      if sep || Ascii.eqb c dash then false
      else if Ascii.eqb c "h"%char
           then match e' with
                | EmptyString => true
                | String c2 e2 => if Ascii.eqb c2 equals then help_text true e2 else help_text false e'
                end
           else true
  end.

(** What the command line comes to *)
Inductive cli := CNothing | CHelp | CError | CMain (params data : option string).
Record ns := mkNs { n_params : option string; n_data : option string }.
Definition store (a : act) (v : string) (n : ns) : ns :=
  match a with
  | AParams => mkNs (Some v) (n_data n)
  | AData => mkNs (n_params n) (Some v)
  | AHelp => n
  end.
(** the second loop: options are consumed from the left, everything else is left over; the help
    ends the program when it is met, left-over strings are an error at the end *)
Fixpoint consume (l : list (string * kind * bool)) (extras : bool) (n : ns) : cli :=
  match l with
  | [] => if extras then CError else CMain (n_params n) (n_data n)
  | (_, KArg, _) :: l' => consume l' true n
  | (_, KOpt None _ _ _, _) :: l' => consume l' true n
  | (_, KOpt (Some AHelp) _ _ None, _) :: _ => CHelp
  | (_, KOpt (Some AHelp) short sep (Some e), _) :: _ => if short && help_text sep e then CHelp else CError
  | (_, KOpt (Some a) _ _ (Some e), _) :: l' => consume l' extras (store a e n)
  | (_, KOpt (Some a) _ _ None, _) :: l' =>
      match l' with
      | (v, KArg, true) :: l'' => consume l'' extras (store a v n)
      | _ => CError
      end
  end.
(** lines 148-176; [argv] is sys.argv[1:] *)
Definition command_line (argv : list string) : cli :=
  match argv with
  | [] => CNothing
  | _ => match classify argv with
         | None => CError
         | Some l => consume l false (mkNs None None)
         end
  end.

(** the whole program: the exit status, whether the closing message is shown, and the disk *)
Section Program.
Context (W : World) {Path : Type} (path : string -> Path) (path_eqb : Path -> Path -> bool).
Variables (read_json : string -> result (pv (w_leaf W))) (read_csv : string -> result unit).
Notation disk := (Disk Path (dict (node (oval (w_num W))))).
Definition program (argv : list string) (order : list string) (none_name : w_leaf W) (h : w_entropy W) (k : disk)
  : Z * bool * disk :=
  match command_line argv with
  | CNothing => (1%Z, false, k)        (* line 178: sys.exit with a text *)
  | CHelp => (0%Z, false, k)
  | CError => (2%Z, false, k)
  | CMain p d =>
      let '(o, k') := main W path path_eqb read_json read_csv order p d none_name h k in
      (exit_status o, match o with Return => true | _ => false end, k')
  end.
End Program.
