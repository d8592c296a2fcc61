(** * Model of src/var_bayes/gaussian_moments.py.  Definitions only. *)
From Coq Require Import ZArith List Bool Arith String Ascii.
From Verif Require Import Num Arr M_LinAlg.
Import ListNotations.

(** ** str.format, as far as the error message of the constructor needs it.
    CPython's MarkupIterator (Objects/stringlib/unicode_format.h): literal text is copied
    up to a brace; a doubled brace is an escaped brace; a single closing brace raises
    ValueError; after an opening brace the replacement field extends to the matching
    closing brace and ValueError is raised if the string ends before it.  Field names are
    decimal argument indexes here (conversions and format specifications are not
    modelled: any other field raises KeyError, as an unknown keyword does); an index out
    of range raises IndexError. *)
Definition cbrace : ascii := "}"%char.
Definition obrace : ascii := "{"%char.

(** text of the field after the opening brace, and the rest after its closing brace *)
Fixpoint fmt_field (s : string) (depth : nat) : option (string * string) :=
  match s with
  | EmptyString => None
  | String c s' =>
      if Ascii.eqb c cbrace
      then match depth with
           | O => Some (EmptyString, s')
           | S d' => match fmt_field s' d' with
                     | Some (f, r) => Some (String c f, r) | None => None end
           end
      else let d' := if Ascii.eqb c obrace then S depth else depth in
           match fmt_field s' d' with
           | Some (f, r) => Some (String c f, r) | None => None end
  end.
Definition digit (c : ascii) : option nat :=
  let n := nat_of_ascii c in
  if (48 <=? n)%nat && (n <=? 57)%nat then Some (n - 48)%nat else None.
Fixpoint field_index (s : string) (acc : nat) : option nat :=
  match s with
  | EmptyString => Some acc
  | String c s' => match digit c with
                   | Some k => field_index s' (acc * 10 + k)%nat
                   | None => None end
  end.
Fixpoint py_format (fuel : nat) (s : string) (args : list string) : result string :=
  match fuel with
  | O => Ok EmptyString
  | S fuel' =>
      match s with
      | EmptyString => Ok EmptyString
      | String c s' =>
          if Ascii.eqb c obrace then
            match s' with
            | String c2 s2 =>
                if Ascii.eqb c2 obrace
                then let* r := py_format fuel' s2 args in Ok (String c r)
                else match fmt_field s' 0 with
                     | None => Err ValueError
                     | Some (f, rest) =>
                         match field_index f 0 with
                         | None => Err KeyError
                         | Some k =>
                             match nth_error args k with
                             | None => Err IndexError
                             | Some a => let* r := py_format fuel' rest args in Ok (append a r)
                             end
                         end
                     end
            | EmptyString => Err ValueError
            end
          else if Ascii.eqb c cbrace then
            match s' with
            | String c2 s2 =>
                if Ascii.eqb c2 cbrace
                then let* r := py_format fuel' s2 args in Ok (String c r)
                else Err ValueError
            | EmptyString => Err ValueError
            end
          else let* r := py_format fuel' s' args in Ok (String c r)
      end
  end.
Definition str_format (s : string) (args : list string) : result string :=
  py_format (S (String.length s)) s args.

Section Moments.
Context {K : Num}.
Local Open Scope num_scope.

(** numpy shapes; arrays of rank >= 3 carry no data in [arr] and have the shape
    given by [None]. *)
Definition shape (x : arr K) : option (list nat) :=
  match x with
  | A0 _ => Some [] | A1 n _ => Some [n] | A2 r c _ => Some [r; c] | A3 => None
  end.
Definition atleast_1d (x : arr K) : arr K :=
  match x with A0 x => A1 1 (fun _ => x) | _ => x end.

(** the object: __slots__ (line 13) *)
Record GM := mkGM { m_arr : arr K; v_arr : arr K; n_size : nat }.

(** gaussian_moments.py:30-31, the format string of the error message *)
Definition shape_msg : string :=
  " {0}: Input arrays shape mismatch. {1} != {2)"%string.

Definition shape_eqb (a b : option (list nat)) : bool :=
  match a, b with
  | Some x, Some y => if list_eq_dec Nat.eq_dec x y then true else false
  | None, None => true
  | _, _ => false
  end.
(** gaussian_moments.py:15-41.  The arguments of format are the class name and the two
    shapes ([show] prints a shape).  Simplification: rank >= 3 inputs are not modelled
    further ([n_size] 0). *)
Definition gm_init (show : option (list nat) -> string) (m v : arr K) : result GM :=
  let m := atleast_1d m in                                     (* line 26 *)
  let v := atleast_1d v in
  if negb (shape_eqb (shape m) (shape v))                      (* line 29 *)
  then let* msg := str_format shape_msg
                     ["GaussianMoments"%string; show (shape m); show (shape v)] in
       Err RuntimeError                                        (* lines 30-32 *)
  else Ok (mkGM m v (match m with A1 n _ => n | A2 r _ _ => r | _ => 0 end)).  (* line 40 *)

(** element-wise formulas, lines 53-85 *)
Definition mom_elt (k : nat) (m v : K) : K :=
  match k with
  | 0 => nZ 1
  | 1 => m
  | 2 => npow m 2 + v
  | 3 => npow m 3 + nZ 3 * m * v
  | 4 => npow m 4 + nZ 6 * npow m 2 * v + nZ 3 * npow v 2
  | 5 => npow m 5 + nZ 10 * npow m 3 * v + nZ 15 * m * npow v 2
  | 6 => npow m 6 + nZ 15 * npow m 4 * v + nZ 45 * npow m 2 * npow v 2 + nZ 15 * npow v 3
  | 7 => npow m 7 + nZ 21 * npow m 5 * v + nZ 105 * npow m 3 * npow v 2
         + nZ 105 * m * npow v 3
  | _ => npow m 8 + nZ 28 * npow m 6 * v + nZ 210 * npow m 4 * npow v 2
         + nZ 420 * npow m 2 * npow v 3 + nZ 105 * npow v 4
  end.
(** lines 106-132 *)
Definition dm_elt (k : nat) (m v : K) : K :=
  match k with
  | 0 | 1 => nZ 1
  | 2 => nZ 2 * m
  | 3 => nZ 3 * (npow m 2 + v)
  | 4 => nZ 4 * (npow m 3 + nZ 3 * m * v)
  | 5 => nZ 5 * (npow m 4 + nZ 6 * npow m 2 * v + nZ 3 * npow v 2)
  | 6 => nZ 6 * (npow m 5 + nZ 10 * npow m 3 * v + nZ 15 * m * npow v 2)
  | 7 => nZ 7 * (npow m 6 + nZ 15 * npow m 4 * v + nZ 45 * npow m 2 * npow v 2
                 + nZ 15 * npow v 3)
  | _ => nZ 8 * (npow m 7 + nZ 21 * npow m 5 * v + nZ 105 * npow m 3 * npow v 2
                 + nZ 105 * m * npow v 3)
  end.
(** lines 153-176 *)
Definition ds_elt (k : nat) (m v : K) : K :=
  match k with
  | 0 | 1 => nZ 0
  | 2 => nZ 1
  | 3 => nZ 3 * m
  | 4 => nZ 6 * (npow m 2 + v)
  | 5 => nZ 10 * npow m 3 + nZ 30 * (m * v)
  | 6 => nZ 15 * npow m 4 + nZ 90 * npow m 2 * v + nZ 45 * npow v 2
  | 7 => nZ 21 * npow m 5 + nZ 210 * npow m 3 * v + nZ 315 * m * npow v 2
  | _ => nZ 28 * npow m 6 + nZ 420 * npow m 4 * v + nZ 1260 * npow m 2 * npow v 2
         + nZ 420 * npow v 3
  end.

(** element-wise operation on two arrays of equal shape *)
Definition zip_arr (f : K -> K -> K) (x y : arr K) : arr K :=
  match x, y with
  | A1 n u, A1 _ v => A1 n (fun i => f (u i) (v i))
  | A2 r c u, A2 _ _ v => A2 r c (fun i j => f (u i j) (v i j))
  | _, _ => A3
  end.
(** np.ones(n_size), np.zeros(n_size): always one-dimensional *)
Definition const_arr (g : GM) (c : K) : arr K := A1 (n_size g) (fun _ => c).

(** __call__, lines 43-92 *)
Definition gm_call (g : GM) (order : Z) : result (arr K) :=
  if ((0 <=? order) && (order <=? 8))%Z
  then Ok (if (order =? 0)%Z then const_arr g (nZ 1)
           else zip_arr (mom_elt (Z.to_nat order)) (m_arr g) (v_arr g))
  else Err ValueError.
(** dm, lines 94-139 *)
Definition gm_dm (g : GM) (order : Z) : result (arr K) :=
  if ((1 <=? order) && (order <=? 8))%Z
  then Ok (if (order =? 1)%Z then const_arr g (nZ 1)
           else zip_arr (dm_elt (Z.to_nat order)) (m_arr g) (v_arr g))
  else Err ValueError.
(** ds, lines 141-183 *)
Definition gm_ds (g : GM) (order : Z) : result (arr K) :=
  if ((1 <=? order) && (order <=? 8))%Z
  then Ok (if (order =? 1)%Z then const_arr g (nZ 0)
           else if (order =? 2)%Z then const_arr g (nZ 1)
           else zip_arr (ds_elt (Z.to_nat order)) (m_arr g) (v_arr g))
  else Err ValueError.
End Moments.
Arguments GM K : clear implicits.
