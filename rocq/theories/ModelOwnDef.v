(** The definition of definitions: /repo/src/imtjson/validator.json, meant for the validator of
    the library itself. *)
From Coq Require Import String.
From Verif Require Import Base ModelValue ModelText ModelKeyed ModelObject ModelString ModelStreams ModelRpc.
Local Open Scope Z_scope.
Local Open Scope list_scope.

(** validator.json 1-119, the whole file; the back quote stands for the quotation mark, which the
    file does not have otherwise. *)
Definition own_text : bytes := map (fun c => if c =? 96 then 34 else c) (txt "{
    `_version`:1,
	`_root`: {
	    `_version`:[1,`optional`],
		`%`: [[`setvar`,`$keyname`,`Rule`],`'native`]
	},

	`Rule`: [`SimpleRule`,
		`FunctionRule`,
		`AlternateRule`,
		`ObjectRule`, 
		[], 
		{}, 
		`number`, 
		true, 
		false, 
		null, 
		`#Definition of general rule`
	],

	`SimpleRule`: [
		[`prefix`,`'`],
        [`prefix`,`#`],
		`'string`,
		`'number`,
		`'boolean`,
		`'any`,
		`'base64`,
		`'base64url`,
		`'hex`,
		`'uppercase`,
		`'lowercase`,
		`'alpha`,
		`'alnum`,
		`'digits`,
		`'integer`,
		`'null`,
		`'optional`,
		`'datetime`,
		`'datetimez`,
		`'date`,
		`'time`,
		`'timez`,
		[`usevar`,[`$keyname`,[`$this`]],`any`],
		`#Simple rules are all strings, including direct values and classes`
	],

	`FunctionRule`: [
		`All`,
		`Range`,
		`MinMaxSize`,
		`Key`,
		`ToString`,
		`ToNumber`,
		`PrefixSuffix`,
		`Split`,
		`Not`,
		`Array`,
		`Tuple`		
	],


	`EmptyArr`: [],

	`All`: [`prefix`, [`^`], `AllCont`],

	`AllCont`: [`EmptyArr`, `Range`, `AllItem`],

	`RangeCmd`: [
		[2],
		[`'>`, `'<`, `'>=`, `'<=`], `any`
	],
	`Range`: [`split`, 2, `RangeCmd`, `AllCont`],
	`AllItem`: [`split`, 1, `Rule`, `AllCont`],

	`MinMaxSize`: [
		[2],
		[`'minsize`, `'maxsize`], `number`
	],

	`Key`: [
		[1], `'key`, `Rule`
	],

	`ToString`: [
		[1], `'tostring`, `Rule`
	],

	`ToNumber`: [
		[1], `'tonumber`, `Rule`
	],

	`PrefixSuffix`: [
		[2],
		[`'prefix`, `'suffix`],
		[`string`, []], `Rule`
	],

	`Split`: [
		[4], `'split`, `number`, `Rule`, `Rule`
	],

	`AlternateRule`: [
		[1], `SimpleRule`, `Rule`
	],

	`Not`: [
		[1], `'not`, `Rule`
	],

	`ObjectRule`: {
		`%`: `Rule`
	},

	`Array`: [[1],[],`Rule`,`#Array is tuple, where first argument is [], and second is Rule, others are optional`],
	`Tuple`: [[2],[[1],`number`],`Rule`,`Rule`,`#Tuple is array with number specifying count of items`]


}").
(** Model only: the value it is read as; PropOwnDef shows that it is, whatever libm is. *)
Definition own_def : value :=
  Eval vm_compute in match from_stream (mkLibm (fun _ _ => S754_nan) (fun _ => S754_nan) (fun _ => S754_nan)) (mkPF false false) own_text with Ok v => v | _ => VUndef end.
