-Q theories Verif

theories/AccessCasesProps.v
theories/AccessModel.v
theories/AccessProofs.v
theories/AccessProps.v
theories/AccessSpec.v
theories/AnswerModel.v
theories/AnswerProps.v
theories/AnswerSpec.v
theories/AnyFitProofs.v
theories/AnyFitProps.v
theories/AnyFitSpec.v
theories/AsymProps.v
theories/AsymSpec.v
theories/BellProofs.v
theories/BestExistProofs.v
theories/BestExistProps.v
theories/BestModel.v
theories/BestProps.v
theories/BestSpec.v
theories/BiblioModel.v
theories/BiblioProofs.v
theories/BiblioProps.v
theories/BiblioSpec.v
theories/BinsProofs.v
theories/BinsProps.v
theories/BinsSpec.v
theories/BuildModel.v
theories/BuildProofs.v
theories/BuildProps.v
theories/BuildSpec.v
theories/CacheConcProofs.v
theories/CacheKeyModel.v
theories/CacheKeyProofs.v
theories/CacheKeySpec.v
theories/CacheLostProofs.v
theories/CacheModel.v
theories/CacheProps.v
theories/CacheQuietProofs.v
theories/CacheSeqProofs.v
theories/CacheSpec.v
theories/ClosedProofs.v
theories/CombinerModel.v
theories/CombinerProofs.v
theories/CombinerProps.v
theories/CombinerSpec.v
theories/ConfFixedProps.v
theories/ConfProps.v
theories/ConfSpec.v
theories/ConfigModel.v
theories/ConfigProofs.v
theories/ConfigProps.v
theories/ConfigSpec.v
theories/ContinuityMoreProps.v
theories/ContinuityProps.v
theories/ContinuitySpec.v
theories/ContourModel.v
theories/ContourProofs.v
theories/ContourProps.v
theories/ContourSpec.v
theories/ConvexProofs.v
theories/ConvexProps.v
theories/ConvexSpec.v
theories/CopyModel.v
theories/CopyProofs.v
theories/CopyProps.v
theories/CopySpec.v
theories/CountModel.v
theories/CountProofs.v
theories/CountProps.v
theories/CountSpec.v
theories/CrossProps.v
theories/CrossSpec.v
theories/CurvProps.v
theories/CurvSpec.v
theories/CurveFits.v
theories/CurveMatrix.v
theories/CurveModel.v
theories/CurveProofs.v
theories/CurveProps.v
theories/CurveSpec.v
theories/DefaultModel.v
theories/DefaultProofs.v
theories/DefaultProps.v
theories/DefaultSpec.v
theories/DistModel.v
theories/DistProofs.v
theories/DistProps.v
theories/DistSpec.v
theories/EngineModel.v
theories/EngineProofs.v
theories/EngineProps.v
theories/EngineSpec.v
theories/EventsProofs.v
theories/EventsProps.v
theories/ExclProofs.v
theories/ExclProps.v
theories/ExclSpec.v
theories/ExistProofs.v
theories/FitExistProofs.v
theories/FitExistProps.v
theories/FitExistSpec.v
theories/FitLoopProofs.v
theories/FitModel.v
theories/FitProofs.v
theories/FitProps.v
theories/FitSpec.v
theories/Fl.v
theories/FreeModel.v
theories/FreeProofs.v
theories/FreeProps.v
theories/FreeSpec.v
theories/GainMoreProps.v
theories/GainProps.v
theories/GainSpec.v
theories/GapProofs.v
theories/GapProps.v
theories/GapSpec.v
theories/GaussModel.v
theories/GaussProofs.v
theories/GradModel.v
theories/GradProofs.v
theories/GradProps.v
theories/GradSpec.v
theories/HelperModel.v
theories/HelperProofs.v
theories/HelperProps.v
theories/HelperSpec.v
theories/InterfaceMatrix.v
theories/InterfaceModel.v
theories/InterfaceProofs.v
theories/InterfaceProps.v
theories/InterfaceSpec.v
theories/IntervalProofs.v
theories/IntervalProps.v
theories/IntervalSpec.v
theories/JointExistProofs.v
theories/JointIntProps.v
theories/JointProps.v
theories/JointSpec.v
theories/LawProofs.v
theories/LawProps.v
theories/LawSpec.v
theories/LevelProofs.v
theories/LevelProps.v
theories/LevelSpec.v
theories/LimitModel.v
theories/LimitProofs.v
theories/LimitProps.v
theories/LimitSpec.v
theories/LogModel.v
theories/LogProofs.v
theories/LogProps.v
theories/LogSpec.v
theories/LumiFloorProps.v
theories/LumiFloorSpec.v
theories/LumiMoreProps.v
theories/LumiProps.v
theories/LumiSpec.v
theories/LumiTinyProps.v
theories/MeasureProofs.v
theories/MeasureProps.v
theories/MeasureSpec.v
theories/MedianModelsProps.v
theories/MedianProps.v
theories/MedianSpec.v
theories/MixModel.v
theories/MixProps.v
theories/MixSpec.v
theories/ModelCasesProps.v
theories/MoreProps.v
theories/MoreSpec.v
theories/NearZeroProps.v
theories/NoEventsProps.v
theories/ObsWidthProps.v
theories/ObsWidthSpec.v
theories/OptionsModel.v
theories/OptionsProps.v
theories/OptionsSpec.v
theories/ParabolaProofs.v
theories/ParabolaProps.v
theories/ParabolaSpec.v
theories/ProfileModel.v
theories/ProfileProofs.v
theories/ProfileProps.v
theories/ProfileSpec.v
theories/RangeProps.v
theories/RangeSpec.v
theories/RatioProofs.v
theories/RatioProps.v
theories/RatioSpec.v
theories/RegionProofs.v
theories/RegionProps.v
theories/RegionSpec.v
theories/RegistryModel.v
theories/RegistryProofs.v
theories/RegistryProps.v
theories/RegistrySpec.v
theories/SamplerModel.v
theories/SamplerProps.v
theories/SamplerSpec.v
theories/ScanCasesProps.v
theories/ScanModel.v
theories/ScanProofs.v
theories/ScanProps.v
theories/ScanSpec.v
theories/ShareModel.v
theories/ShareProps.v
theories/ShareSpec.v
theories/SigUncProps.v
theories/SimpleConfigProps.v
theories/SimpleModel.v
theories/SimpleProps.v
theories/SimpleSpec.v
theories/SliceModel.v
theories/SliceProps.v
theories/SliceSpec.v
theories/StartupModel.v
theories/StartupProofs.v
theories/StartupProps.v
theories/StartupSpec.v
theories/SynthModel.v
theories/SynthProofs.v
theories/SynthProps.v
theories/SynthSpec.v
theories/TestStatModel.v
theories/TestStatProofs.v
theories/TestStatProps.v
theories/TestStatSpec.v
theories/ThirdModel.v
theories/ThirdProofs.v
theories/ThirdProps.v
theories/ThirdSpec.v
theories/TrackModel.v
theories/TrackProofs.v
theories/TrackProps.v
theories/TrackSpec.v
theories/UpperProofs.v
theories/UpperProps.v
theories/UpperSpec.v
theories/WalkCasesProps.v
theories/WalkProps.v
theories/WalkSpec.v
theories/WarnModel.v
theories/WarnProofs.v
theories/WarnProps.v
theories/WarnSpec.v
theories/WebModel.v
theories/WebProps.v
theories/WhitenModel.v
theories/WhitenProofs.v
theories/WhitenProps.v
theories/WhitenSpec.v
theories/WidthProofs.v
theories/WidthProps.v
theories/WidthSpec.v
theories/WindowProps.v
theories/WindowSpec.v
theories/WrapModel.v
theories/WrapProofs.v
theories/WrapProps.v
theories/WrapSpec.v
