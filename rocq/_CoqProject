-Q theories Verif
theories/Base.v
theories/BaseFacts.v
theories/StringFacts.v
theories/Ordered.v
theories/OrderedFacts.v
theories/JsonModel.v
theories/JsonSpec.v
theories/JsonProofs.v
theories/JsonProps.v
theories/TypeModel.v
theories/TypeSpec.v
theories/TypeProofs.v
theories/TypeProps.v
theories/SchemaModel.v
theories/SchemaSpec.v
theories/SchemaProofs.v
theories/SchemaProps.v
theories/AuthModel.v
theories/AuthSpec.v
theories/AuthProofs.v
theories/AuthProps.v
theories/MustacheModel.v
theories/MustacheSpec.v
theories/MustacheProofs.v
theories/MustacheProps.v
theories/DiscModel.v
theories/DiscSpec.v
theories/DiscProofs.v
theories/DiscProps.v
theories/ConfigModel.v
theories/MergeModel.v
theories/MergeSpec.v
theories/MergeProofs.v
theories/MergeProps.v
theories/GraphModel.v
theories/GraphSpec.v
theories/ShakeProofs.v
theories/ShakeProps.v
theories/NpoProofs.v
theories/NpoProps.v
theories/UnionProofs.v
theories/UnionProps.v
theories/RenameModel.v
theories/RenameSpec.v
theories/RenameProofs.v
theories/RenameProps.v
theories/PlanModel.v
theories/PlanSpec.v
theories/PlanProofs.v
theories/SynthProofs.v
theories/PlanProps.v
theories/CtxModel.v
theories/IrModel.v
theories/TtlModel.v
theories/TtlSpec.v
theories/IrSpec.v
theories/IrProofs.v
theories/GuardProofs.v
theories/OpModel.v
theories/OpSpec.v
theories/OpProofs.v
theories/TtlProofs.v
theories/TtlProps.v
theories/IrProps.v
theories/BuilderModel.v
theories/BuilderSpec.v
theories/BuilderProofs.v
theories/Builder2Proofs.v
theories/BuilderProps.v
theories/ExecModel.v
theories/ExecSpec.v
theories/ExecProofs.v
theories/ConstProofs.v
theories/ExecProps.v
theories/DlModel.v
theories/DlSpec.v
theories/DlProofs.v
theories/DlProps.v
theories/DedupeModel.v
theories/DedupeSpec.v
theories/DedupeProofs.v
theories/DedupeProps.v
theories/HttpBatchModel.v
theories/HttpBatchSpec.v
theories/HttpBatchProofs.v
theories/HttpBatchProps.v
theories/RestModel.v
theories/RestSpec.v
theories/RestProofs.v
theories/RestProps.v
theories/HeadersModel.v
theories/HeadersSpec.v
theories/HeadersProofs.v
theories/HeadersProps.v
theories/AnswerModel.v
theories/AnswerSpec.v
theories/AnswerProofs.v
theories/AnswerProps.v
theories/UrlModel.v
theories/RequestModel.v
theories/GqlModel.v
theories/UrlProofs.v
theories/RequestSpec.v
theories/RequestProofs.v
theories/RelatedProofs.v
theories/RequestProps.v
theories/SplitModel.v
theories/SplitSpec.v
theories/SplitProofs.v
theories/SplitProps.v
theories/DlIdModel.v
theories/DlIdSpec.v
theories/DlIdProofs.v
theories/DlIdProps.v
theories/InputModel.v
theories/InputSpec.v
theories/InputProofs.v
theories/InputProps.v
theories/AmbModel.v
theories/AmbSpec.v
theories/AmbProofs.v
theories/AmbProps.v
theories/FedModel.v
theories/FedSpec.v
theories/FedProofs.v
theories/FedCheck.v
theories/FedMembers.v
theories/FedProps.v
theories/FedKeep.v
theories/ComposeModel.v
theories/ComposeSpec.v
theories/ComposeProofs.v
theories/ComposeProps.v
theories/DocModel.v
theories/DocSpec.v
theories/DocProofs.v
theories/DocRound.v
theories/DocProps.v
theories/CtxSpec.v
theories/CtxProofs.v
theories/CtxProps.v
theories/ShareSpec.v
theories/ShareProofs.v
theories/ShareProps.v
theories/UpstreamModel.v
theories/UpstreamSpec.v
theories/UpstreamProofs.v
theories/UpstreamProps.v
theories/RespModel.v
theories/RespSpec.v
theories/RespProofs.v
theories/RespProps.v
theories/ScalarModel.v
theories/ScalarSpec.v
theories/ScalarProofs.v
theories/ScalarProps.v
theories/LinksModel.v
theories/LinksSpec.v
theories/LinksProofs.v
theories/LinksProps.v
theories/FieldModel.v
theories/FieldSpec.v
theories/FieldProofs.v
theories/Field2Proofs.v
theories/FieldProps.v
theories/EntityModel.v
theories/EntitySpec.v
theories/CallModel.v
theories/CallSpec.v
theories/CallProofs.v
theories/CallProps.v
theories/EntityProofs.v
theories/Entity2Proofs.v
theories/EntityProps.v
theories/CheckModel.v
theories/CheckSpec.v
theories/CheckProofs.v
theories/CheckProps.v
theories/GenModel.v
theories/GenSpec.v
theories/GenProofs.v
theories/GenProps.v
theories/OpGenModel.v
theories/OpGenSpec.v
theories/OpGenProofs.v
theories/OpGenProps.v
theories/UInModel.v
theories/UInSpec.v
theories/UInProofs.v
theories/UInProps.v
theories/IntroModel.v
theories/IntroSpec.v
theories/IntroProofs.v
theories/IntroProps.v
theories/TmModel.v
theories/TmSpec.v
theories/TmProofs.v
theories/Tm2Proofs.v
theories/Tm3Proofs.v
theories/Tm4Proofs.v
theories/TmProps.v
theories/ShrinkModel.v
theories/ShrinkSpec.v
theories/ShrinkProofs.v
theories/ShrinkProps.v
theories/HookModel.v
theories/HookSpec.v
theories/HookProofs.v
theories/HookProps.v
theories/ImpModel.v
theories/ImpSpec.v
theories/ImpProofs.v
theories/Tm5Proofs.v
theories/ImpProps.v
theories/FlatModel.v
theories/FlatSpec.v
theories/FlatProofs.v
theories/FlatProps.v
theories/PgModel.v
theories/PgSpec.v
theories/PgProofs.v
theories/Pg2Proofs.v
theories/Pg3Proofs.v
theories/Pg4Proofs.v
theories/PgProps.v
theories/GsModel.v
theories/GsSpec.v
theories/GsProofs.v
theories/Gs2Proofs.v
theories/Gs3Proofs.v
theories/GsProps.v
theories/CnModel.v
theories/CnSpec.v
theories/CnProofs.v
theories/Cn2Proofs.v
theories/CnProps.v
theories/FdModel.v
theories/FdSpec.v
theories/FdProofs.v
theories/Fd2Proofs.v
theories/FdProps.v
theories/SvModel.v
theories/SvSpec.v
theories/SvProofs.v
theories/SvProps.v
theories/PrModel.v
theories/PrSpec.v
theories/PrProofs.v
theories/Pr2Proofs.v
theories/Pr3Proofs.v
theories/PrProps.v
theories/SdlModel.v
theories/SdlSpec.v
theories/SdlProofs.v
theories/Sdl2Proofs.v
theories/SdlCodecs.v
theories/SdlProps.v
theories/MgModel.v
theories/MgSpec.v
theories/MgProofs.v
theories/MgProps.v
theories/NmModel.v
theories/NmSpec.v
theories/NmProofs.v
theories/NmProps.v
theories/LkModel.v
theories/LkSpec.v
theories/LkProofs.v
theories/LkProps.v
theories/ErModel.v
theories/ErSpec.v
theories/ErProofs.v
theories/ErProps.v
theories/UgModel.v
theories/UgSpec.v
theories/UgProofs.v
theories/UgProps.v
theories/TiModel.v
theories/TiSpec.v
theories/TiProofs.v
theories/TiProps.v
theories/ExModel.v
theories/ExSpec.v
theories/ExProofs.v
theories/ExProps.v
theories/ScModel.v
theories/ScSpec.v
theories/ScProofs.v
theories/ScProps.v
theories/TgModel.v
theories/TgSpec.v
theories/TgProofs.v
theories/TgProps.v
theories/RfModel.v
theories/RfSpec.v
theories/RfProofs.v
theories/RfProps.v
theories/BtModel.v
theories/BtSpec.v
theories/BtProofs.v
theories/BtProps.v
theories/PsModel.v
theories/PsSpec.v
theories/PsProofs.v
theories/PsProps.v
theories/MtModel.v
theories/MtSpec.v
theories/MtProofs.v
theories/MtProps.v
theories/RdModel.v
theories/RdSpec.v
theories/RdProofs.v
theories/RdProps.v
theories/HoModel.v
theories/HoSpec.v
theories/HoProofs.v
theories/HoProps.v
theories/TkModel.v
theories/TkSpec.v
theories/TkProofs.v
theories/TkProps.v
theories/LmModel.v
theories/LmSpec.v
theories/LmProofs.v
theories/LmProps.v
theories/WrModel.v
theories/WrSpec.v
theories/WrProofs.v
theories/WrProps.v
